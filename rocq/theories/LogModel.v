(* Model of /repo/src/gutil_log.c and of the parts of /repo/include/gutil_log.h it uses. A C string
   is the list of its characters up to the terminating NUL; NULL is None. GLOG_SYSLOG and GLOG_GLIB
   are 1 (lines 51-61, Unix); gettid is defined (lines 42-45). *)
From Verif Require Import Base HexModel ParseModel.

Notation str := (list Z).

(* ---------------- GLib and libc ---------------- *)

(* strncmp, characters compared as unsigned *)
Fixpoint strncmp (n : nat) (a b : str) : Z :=
  match n with
  | O => 0
  | S n => match a, b with
           | [], [] => 0
           | [], y :: _ => - y
           | x :: _, [] => x
           | x :: a, y :: b => if x =? y then strncmp n a b else x - y
           end
  end.

(* TOLOWER of GLib's gstrfuncs.c *)
Definition lower (c : Z) : Z := if (65 <=? c) && (c <=? 90) then c + 32 else c.

(* g_ascii_strcasecmp with NULL complains and returns 0 *)
Fixpoint casecmp (a b : str) : Z :=
  match a, b with
  | x :: a', y :: b' => if lower x =? lower y then casecmp a' b' else lower x - lower y
  | _, _ => hd 0 a - hd 0 b
  end.
Definition g_strcasecmp (a : option str) (b : str) : Z := match a with Some a => casecmp a b | None => 0 end.

(* g_ascii_strncasecmp with NULL complains and returns 0 *)
Fixpoint ncasecmp (n : nat) (a b : str) : Z :=
  match n with
  | O => 0
  | S m => match a, b with
           | x :: a', y :: b' => if lower x =? lower y then ncasecmp m a' b' else lower x - lower y
           | _, _ => hd 0 a - hd 0 b
           end
  end.
Definition g_strncasecmp (a : option str) (b : str) (n : nat) : Z := match a with Some a => ncasecmp n a b | None => 0 end.

Definition strlen (s : option str) : res Z := match s with Some s => Ok (len s) | None => Fail NullDeref end.

(* strchr(s, c): what is before the first c and what is after it *)
Fixpoint split_at (c : Z) (s : str) : option (str * str) :=
  match s with
  | [] => None
  | x :: t => if x =? c then Some ([], t) else match split_at c t with Some (a, b) => Some (x :: a, b) | None => None end
  end.

(* position of c in s: strchr(s, c) - s *)
Fixpoint index (c : Z) (s : str) : option Z :=
  match s with
  | [] => None
  | x :: t => if x =? c then Some 0 else match index c t with Some i => Some (i + 1) | None => None end
  end.

(* g_strcmp0: only whether the result is 0 matters. NULL equals NULL only. *)
Definition strcmp0_eq (a b : option str) : bool :=
  match a, b with
  | Some a, Some b => (fix eq a b := match a, b with [], [] => true | x :: a, y :: b => (x =? y) && eq a b | _, _ => false end) a b
  | None, None => true
  | _, _ => false
  end.

(* ---------------- configuration ---------------- *)

(* gutil_log.h:42-49 *)
Definition ALWAYS : Z := -2.
Definition INHERIT : Z := -1.
Definition NONE : Z := 0.
Definition ERR : Z := 1.
Definition WARN : Z := 2.
Definition INFO : Z := 3.
Definition DEBUG : Z := 4.
Definition VERBOSE : Z := 5.

(* What gutil_log_func may point to: the functions of this library or of the client *)
Inductive func : Set := FStdout | FStderr | FSyslog | FGlib | FClient (n : nat).
(* What gutil_log_func2 and log_proc may point to: gutil_log_default_proc, the ...2 functions (which
   pass the name on to the functions above), or functions of the client *)
Inductive proc : Set := PDefault | PStdout2 | PStderr2 | PSyslog2 | PGlib2 | PClient (n : nat).

(* GLogModule, gutil_log.h:87-95 without max_level (not used by gutil_log.c) and reserved2 *)
Record module := LogMod { m_name : option str; m_parent : option nat; m_proc : option proc; m_level : Z; m_flags : Z }.

(* The variables of gutil_log.c:73-84. All modules which exist, addressed by their position.
   gutil_log_default is at 0. *)
Record conf := Conf { c_mods : list module; c_func : option func; c_func2 : option proc }.
Definition set_mods (c : conf) (l : list module) : conf := Conf l (c_func c) (c_func2 c).
Definition set_func (c : conf) (f : option func) : conf := Conf (c_mods c) f (c_func2 c).

Definition the_mod (c : conf) (m : nat) : res module :=
  match nth_error (c_mods c) m with Some x => Ok x | None => Fail UseAfterFree end.
Definition default_level (c : conf) : res Z := do d <- the_mod c 0; Ok (m_level d).

(* gutil_log.h:97-98 *)
Definition hidden (m : module) : bool := negb (Z.land (m_flags m) 1 =? 0).
Definition disabled (m : module) : bool := negb (Z.land (m_flags m) 2 =? 0).

(* ---------------- is it logged ---------------- *)

(* What reaches a log function: with a module (GLogProc2) or a name (GLogProc) *)
Inductive out : Type :=
| OProc (p : proc) (m : nat) (level : Z) (text : str)
| OFunc (f : func) (name : option str) (level : Z) (text : str).

(* The call of a GLogProc2 at line 426; gutil_log_default_proc is lines 388-401 *)
Definition call_proc (c : conf) (p : proc) (m : nat) (level : Z) (text : str) : res (option out) :=
  match p with
  | PDefault =>
      do x <- the_mod c m;
      Ok (match c_func c with
          | Some f => Some (OFunc f (if hidden x then None else m_name x) level text)
          | None => None
          end)
  | _ => Ok (Some (OProc p m level text))
  end.

(* lines 420-421 and 485-486 *)
Definition passes (level max : Z) : bool := ((level >? NONE) && (level <=? max)) || (level =? ALWAYS).

(* gutil_logv_r, lines 404-430. The message is given by its text; it is formatted by the log
   function. *)
Fixpoint logv_r (fuel : nat) (c : conf) (m check : option nat) (level : Z) (text : str) : res (option out) :=
  match fuel with
  | O => Fail NoFuel
  | S fuel =>
      let print (max : Z) :=
        if passes level max then
          let m := match m with Some m => m | None => O end in
          do x <- the_mod c m;
          match m_proc x with
          | Some p => call_proc c p m level text
          | None => match c_func2 c with Some p => call_proc c p m level text | None => Fail NullCall end
          end
        else Ok None in
      match check with
      | None => do d <- default_level c; print d
      | Some k =>
          do x <- the_mod c k;
          if disabled x then Ok None
          else if m_level x =? INHERIT then
            match m_parent x with
            | Some p => logv_r fuel c m (Some p) level text
            | None => do d <- default_level c; print d
            end
          else print (m_level x)
      end
  end.

(* gutil_logv, lines 432-442; gutil_log (444-456) is the same *)
Definition logv (fuel : nat) (c : conf) (m : option nat) (level : Z) (text : str) : res (option out) :=
  match c_func2 c with
  | Some _ => if level =? NONE then Ok None else logv_r fuel c m m level text
  | None => Ok None
  end.

(* gutil_log_enabled_r, lines 472-488 *)
Fixpoint enabled_r (fuel : nat) (c : conf) (m : nat) (level : Z) : res bool :=
  match fuel with
  | O => Fail NoFuel
  | S fuel =>
      do x <- the_mod c m;
      if disabled x then Ok false
      else if m_level x =? INHERIT then
        match m_parent x with
        | Some p => enabled_r fuel c p level
        | None => do d <- default_level c; Ok (passes level d)
        end
      else Ok (passes level (m_level x))
  end.

(* gutil_log_enabled, lines 490-500 *)
Definition enabled (fuel : nat) (c : conf) (m : option nat) (level : Z) : res bool :=
  match c_func2 c with
  | Some _ => if level =? NONE then Ok false else enabled_r fuel c (match m with Some m => m | None => O end) level
  | None => Ok false
  end.

(* ---------------- dump ---------------- *)

(* the conversion %0wX of printf, digits from the last one *)
Definition hex_digit_upper (v : Z) : Z := if v <? 10 then 48 + v else 55 + v.
Fixpoint fmt_X (fuel : nat) (w : nat) (v : Z) (acc : str) : str :=
  match fuel with
  | O => acc
  | S fuel =>
      if (v =? 0) && (match w with O => true | _ => false end) then acc
      else fmt_X fuel (pred w) (v / 16) (hex_digit_upper (v mod 16) :: acc)
  end.

(* the string in a buffer *)
Fixpoint cstr (b : list (option Z)) : res str :=
  match b with
  | [] => Fail OobRead
  | None :: _ => Fail UninitRead
  | Some c :: b => if c =? 0 then Ok [] else do s <- cstr b; Ok (c :: s)
  end.

(* Lines 515-522: the messages, in order. data is the memory from the given pointer on. The guint
   off and the gsize size wrap; gutil_hexdump takes a guint. *)
Fixpoint dump_loop (fuel : nat) (d : dialect) (isp : Z -> bool) (prefix : str) (data : list Z) (off size : Z) : res (list str) :=
  if size >? 0 then
    match fuel with
    | O => Fail NoFuel
    | S fuel =>
        do (consumed, buf) <- hexdump d isp (malloc 70) (skipn (Z.to_nat off) data) (u32 size);
        do line <- cstr buf;
        do rest <- dump_loop fuel d isp prefix data (u32 (off + consumed)) (u64 (size - consumed));
        Ok ((prefix ++ fmt_X 8 4 off [] ++ [58; 32] ++ line) :: rest)
    end
  else Ok [].

(* the messages are logged one after another; log functions do not change the configuration *)
Fixpoint log_all (fuel : nat) (c : conf) (m : option nat) (level : Z) (l : list str) : res (list out) :=
  match l with
  | [] => Ok []
  | t :: l =>
      do o <- logv fuel c m level t;
      do r <- log_all fuel c m level l;
      Ok (match o with Some o => o :: r | None => r end)
  end.

(* gutil_log_dump, lines 502-536. Simplified: all lines are made before the first one is logged. *)
Definition dump (fuel : nat) (d : dialect) (isp : Z -> bool) (c : conf) (m : option nat) (level : Z) (prefix : option str) (data : list Z) (size : Z) : res (list out) :=
  do e <- enabled fuel c m level;
  if (e : bool) then
    do l <- dump_loop fuel d isp (match prefix with Some p => p | None => [] end) data 0 size;
    log_all fuel c m level l
  else Ok [].
(* gutil_log_dump_bytes, lines 538-551; NULL GBytes is None *)
Definition dump_bytes (fuel : nat) (d : dialect) (isp : Z -> bool) (c : conf) (m : option nat) (level : Z) (prefix : option str) (bytes : option (list Z)) : res (list out) :=
  match bytes with
  | Some data => dump fuel d isp c m level prefix data (len data)
  | None => Ok []
  end.

(* ---------------- timestamp format ---------------- *)

(* lines 65-67: strings made by g_strdup are at their position, None once freed *)
Inductive ftime : Set := TDefault | TCustom (a : nat).
Record tstate := TState { t_heap : list (option str); t_use : ftime; t_custom : option nat }.
Definition t_start : tstate := TState [] TDefault None.

Definition read_str (h : list (option str)) (a : nat) : res str :=
  match nth_error h a with Some (Some s) => Ok s | _ => Fail UseAfterFree end.
Definition free_str (h : list (option str)) (a : option nat) : res (list (option str)) :=
  match a with
  | None => Ok h
  | Some a => match nth_error h a with Some (Some _) => Ok (upd h a None) | _ => Fail DoubleFree end
  end.

(* gutil_log_set_timestamp_format, lines 562-579 *)
Definition set_timestamp_format (s : tstate) (f : option str) : res tstate :=
  match f with
  | Some f =>
      do same <- match t_custom s with Some a => do x <- read_str (t_heap s) a; Ok (strcmp0_eq (Some f) (Some x)) | None => Ok false end;
      if (same : bool) then Ok s
      else
        let old := t_custom s in
        let a := length (t_heap s) in
        do h <- free_str (t_heap s ++ [Some f]) old;
        Ok (TState h (TCustom a) (Some a))
  | None =>
      match t_custom s with
      | Some a => do h <- free_str (t_heap s) (Some a); Ok (TState h TDefault None)
      | None => Ok s
      end
  end.
Fixpoint t_run (s : tstate) (l : list (option str)) : res tstate :=
  match l with [] => Ok s | f :: l => do s <- set_timestamp_format s f; t_run s l end.
(* line 65: "%Y-%m-%d %H:%M:%S " *)
Definition ftime_default : str := [37;89;45;37;109;45;37;100;32;37;72;58;37;77;58;37;83;32].
(* reading *gutil_log_ftime, lines 176 and 184 *)
Definition current_format (s : tstate) : res str :=
  match t_use s with TDefault => Ok ftime_default | TCustom a => read_str (t_heap s) a end.

(* ---------------- formatting ---------------- *)

(* What a format string and its arguments stand for: a text, or an encoding error (vsnprintf
   fails) *)
Inductive fmt : Type := FText (t : str) | FError.
Definition INT_MAX : Z := 2^31 - 1.

(* g_vsnprintf into a buffer: the result and the new contents. Fails with a text of more than
   INT_MAX characters, leaving anything in the buffer. *)
Definition vsnprintf (b : list (option Z)) (size : Z) (f : fmt) : res (Z * list (option Z)) :=
  if size >? len b then Fail OobWrite
  else
    match f with
    | FText t =>
        if len t <=? INT_MAX then
          if size >? 0 then
            let w := firstn (Z.to_nat (size - 1)) t ++ [0] in Ok (len t, map Some w ++ skipn (length w) b)
          else Ok (len t, b)
        else Ok (-1, map (fun _ => None) b)
    | FError => Ok (-1, map (fun _ => None) b)
    end.

(* g_malloc of an int converted to gsize: NULL (None) if it is 0, the process is aborted if there is
   not so much memory. The blocks made are at their positions, None once freed. *)
Definition heap := list (option (list (option Z))).
Definition g_malloc (h : heap) (size : Z) : res (heap * option nat) :=
  if size =? 0 then Ok (h, None)
  else if size <? 0 then Fail AllocAbort
  else Ok (h ++ [Some (malloc size)], Some (length h)).
Definition g_free (h : heap) (a : nat) : res heap :=
  match nth_error h a with Some (Some _) => Ok (upd h a None) | _ => Fail DoubleFree end.

(* a buffer: that of the caller or one which was allocated *)
Inductive buffer : Set := BCaller | BHeap (a : nat).

(* Lines 138-156. buf is the buffer of the caller, if any. Returns the buffers and which one has the
   text. *)
Fixpoint format_loop (fuel : nat) (d : dialect) (f : fmt) (h : heap) (buf : list (option Z)) (b : buffer) (size : Z)
    : res (heap * list (option Z) * option buffer) :=
  match fuel with
  | O => Fail NoFuel
  | S fuel =>
      do x <- match b with BCaller => Ok buf | BHeap a => match nth_error h a with Some (Some x) => Ok x | _ => Fail UseAfterFree end end;
      do (nchars, x) <- vsnprintf x size f;
      let h := match b with BCaller => h | BHeap a => upd h a (Some x) end in
      let buf := match b with BCaller => x | BHeap _ => buf end in
      if (nchars >=? 0) && (nchars <? size) then Ok (h, buf, Some b)
      else
        do size <- (if nchars >=? 0 then arith32 d (nchars + 1) else arith32 d (size * 2));
        do h <- match b with BCaller => Ok h | BHeap a => g_free h a end;
        do (h, a) <- g_malloc h size;
        match a with
        | None => Ok (h, buf, None)
        | Some a => format_loop fuel d f h buf (BHeap a) size
        end
  end.

(* gutil_log_format, lines 119-159, with an array of bufsize characters as all callers have it *)
Definition format (fuel : nat) (d : dialect) (h : heap) (buf : list (option Z)) (f : fmt) : res (heap * list (option Z) * option buffer) :=
  format_loop fuel d f h buf BCaller (len buf).

(* the text found in the buffer returned *)
Definition text_of (h : heap) (buf : list (option Z)) (b : option buffer) : res str :=
  match b with
  | None => Fail NullDeref
  | Some BCaller => cstr buf
  | Some (BHeap a) => match nth_error h a with Some (Some x) => cstr x | _ => Fail UseAfterFree end
  end.
(* if (msg != buf) g_free(msg) *)
Definition release (h : heap) (b : option buffer) : res heap :=
  match b with Some (BHeap a) => g_free h a | _ => Ok h end.

(* "WARNING: " and "ERROR: ", lines 195-199 *)
Definition stdio_prefix (level : Z) : str :=
  if level =? WARN then [87;65;82;78;73;78;71;58;32] else if level =? ERR then [69;82;82;79;82;58;32] else [].

(* an empty name is treated as NULL, lines 190-193 *)
Definition named (name : option str) : option str := match name with Some [] => None | _ => name end.

(* strftime into char t[32], lines 176-188: expansion is what the format stands for now. If it does
   not fit with its NUL, the contents of the array are unspecified (ISO C 7.27.3.5). ts is
   gutil_log_timestamp. *)
Definition timestamp (ts : bool) (tf : tstate) (expansion : str -> str) : res str :=
  if ts then
    do f <- current_format tf;
    match f with
    | [] => Ok []
    | _ => let e := expansion f in if len e <? 32 then Ok e else Fail UninitRead
    end
  else Ok [].

Definition brackets (s : str) : str := [91] ++ s ++ [93; 32].
Definition opt_brackets (s : option str) : str := match s with Some s => brackets s | None => [] end.

(* gutil_log_stdio, lines 162-228: the line printed. tid is the number of the thread if gutil_log_tid
   is on. The Windows code (lines 201-211) is left out. *)
Definition stdio (fuel : nat) (d : dialect) (h : heap) (ts : bool) (tf : tstate) (expansion : str -> str) (tid : option str)
    (name : option str) (level : Z) (f : fmt) : res (heap * str) :=
  do t <- timestamp ts tf expansion;
  let name := named name in
  let prefix := stdio_prefix level in
  do (h, buf, msg) <- format fuel d h (malloc 512) f;
  do m <- text_of h buf msg;
  let line := opt_brackets tid ++ t ++ opt_brackets name ++ prefix ++ m ++ [10] in
  do h <- release h msg;
  Ok (h, line).

(* syslog.h: LOG_ERR 3, LOG_WARNING 4, LOG_NOTICE 5, LOG_INFO 6, LOG_DEBUG 7. Lines 283-302. *)
Definition syslog_priority (level : Z) : Z :=
  if level =? VERBOSE then 7 else if level =? DEBUG then 6 else if level =? WARN then 4 else if level =? ERR then 3 else 5.
(* "WARNING! " and "ERROR! " *)
Definition syslog_prefix (level : Z) : option str :=
  if level =? WARN then Some [87;65;82;78;73;78;71;33;32] else if level =? ERR then Some [69;82;82;79;82;33;32] else None.

(* gutil_log_syslog, lines 273-339: the priority and text which syslog gets. vsyslog formats the text
   itself: it is not limited to INT_MAX characters here. dname is the name of the default module;
   comparing the pointers first (line 306) makes no difference. *)
Definition syslog (fuel : nat) (d : dialect) (h : heap) (dname : option str) (tid : option str) (name : option str) (level : Z) (f : fmt)
    : res (heap * Z * option str) :=
  let prio := syslog_priority level in
  let prefix := syslog_prefix level in
  let name := match named name with Some n => if strcmp0_eq (Some n) dname then None else Some n | None => None end in
  match name, prefix, tid with
  | None, None, None => Ok (h, prio, match f with FText t => Some t | FError => None end)
  | _, _, _ =>
      do (h, buf, msg) <- format fuel d h (malloc 512) f;
      do m <- text_of h buf msg;
      let text := opt_brackets tid ++ opt_brackets name ++ (match prefix with Some p => p | None => [] end) ++ m in
      do h <- release h msg;
      Ok (h, prio, Some text)
  end.

(* gutil_log_glib, lines 354-371. GLib: G_LOG_LEVEL_CRITICAL 1<<3, WARNING 1<<4, MESSAGE 1<<5,
   INFO 1<<6, DEBUG 1<<7. *)
Definition glib_flags (level : Z) : Z :=
  if level =? VERBOSE then 2^7 else if level =? DEBUG then 2^6 else if level =? WARN then 2^4 else if level =? ERR then 2^3 else 2^5.

(* ---------------- options ---------------- *)

(* lines 91-97: "none", "error", "warning", "info", "debug", "verbose" *)
Definition level_names : list str :=
  [[110;111;110;101]; [101;114;114;111;114]; [119;97;114;110;105;110;103]; [105;110;102;111]; [100;101;98;117;103]; [118;101;114;98;111;115;101]].

(* lines 601-605 *)
Fixpoint match_level (names : list str) (i : Z) (s : str) : option Z :=
  match names with
  | [] => None
  | n :: names => if strncmp (length s) n s =? 0 then Some i else match_level names (i + 1) s
  end.

(* gutil_log_parse_level, lines 582-612. Returns the level and whether *error has been set. *)
Definition parse_level (s : str) (error : bool) : Z * bool :=
  let bad := (-1, error) in
  match s with
  | [] => bad
  | c :: t =>
      let digit := match t with [] => index c [48;49;50;51;52;53] | _ => None end in
      match digit with
      | Some i => (i, false)
      | None => match match_level level_names 0 s with Some i => (i, false) | None => bad end
      end
  end.

(* Lines 633-639: i counts up to count, n iterations are left. The module found. name is the part of
   opt before the colon: no more than that is compared. *)
Fixpoint find_module (n : nat) (c : conf) (modules : list nat) (i : Z) (name : str) : res (option nat) :=
  match n with
  | O => Ok None
  | S n =>
      do m <- rd modules i;
      do x <- the_mod c m;
      if g_strncasecmp (m_name x) name (length name) =? 0 then
        do l <- strlen (m_name x);
        if l =? len name then Ok (Some m) else find_module n c modules (i + 1) name
      else find_module n c modules (i + 1) name
  end.

Definition set_level (c : conf) (m : nat) (level : Z) : res conf :=
  do x <- the_mod c m;
  Ok (set_mods c (upd (c_mods c) m (LogMod (m_name x) (m_parent x) (m_proc x) level (m_flags x)))).

(* gutil_log_parse_option, lines 617-653. Returns the result, the configuration and whether *error
   has been set. *)
Definition parse_option (c : conf) (opt : str) (modules : list nat) (count : Z) (error : bool) : res (bool * conf * bool) :=
  match split_at 58 opt with
  | Some (name, level) =>
      let (l, e) := parse_level level error in
      if l >=? 0 then
        do m <- find_module (Z.to_nat count) c modules 0 name;
        match m with
        | Some m => do c <- set_level c m l; Ok (true, c, e)
        | None => Ok (false, c, error)
        end
      else Ok (false, c, e)
  | None =>
      let (l, e) := parse_level opt error in
      if l >=? 0 then do c <- set_level c 0 l; Ok (true, c, e) else Ok (false, c, e)
  end.

(* ---------------- log type ---------------- *)

(* lines 99-107 *)
Definition t_stdout : str := [115;116;100;111;117;116].
Definition t_stderr : str := [115;116;100;101;114;114].
Definition t_custom_name : str := [99;117;115;116;111;109].
Definition t_glib : str := [103;108;105;98].
Definition t_syslog : str := [115;121;115;108;111;103].

Inductive sys_event : Set := Openlog | Closelog.
Definition is_syslog (f : option func) : bool := match f with Some FSyslog => true | _ => false end.

(* NULL default_name means "don't change the default name" *)
Definition set_default_name (c : conf) (name : option str) : res conf :=
  match name with
  | None => Ok c
  | Some _ => do x <- the_mod c 0; Ok (set_mods c (upd (c_mods c) 0%nat (LogMod name (m_parent x) (m_proc x) (m_level x) (m_flags x))))
  end.

(* gutil_log_set_type, lines 684-722: the result, the configuration and the calls of openlog and
   closelog *)
Definition set_type (c : conf) (type : option str) (name : option str) : res (bool * conf * list sys_event) :=
  if g_strcasecmp type t_syslog =? 0 then
    let ev := if is_syslog (c_func c) then [] else [Openlog] in
    do c <- set_default_name c name;
    Ok (true, set_func c (Some FSyslog), ev)
  else
    let ev := if is_syslog (c_func c) then [Closelog] else [] in
    do c <- set_default_name c name;
    if g_strcasecmp type t_stdout =? 0 then Ok (true, set_func c (Some FStdout), ev)
    else if g_strcasecmp type t_stderr =? 0 then Ok (true, set_func c (Some FStderr), ev)
    else if g_strcasecmp type t_glib =? 0 then Ok (true, set_func c (Some FGlib), ev)
    else Ok (false, c, ev).

(* gutil_log_get_type, lines 724-736 *)
Definition get_type (c : conf) : str :=
  match c_func c with
  | Some FStdout => t_stdout
  | Some FStderr => t_stderr
  | Some FSyslog => t_syslog
  | Some FGlib => t_glib
  | _ => t_custom_name
  end.

(* ---------------- environment ---------------- *)

(* gutil_log_init, lines 740-762: the default level, gutil_log_timestamp and gutil_log_tid. getenv
   returns NULL (None) for an unset variable. GDEBUG is compiled out or logs only. *)
Definition init (lc : libc) (level : Z) (ts tid : bool) (e_level e_ts e_tid : option str) : Z * bool * bool :=
  let val := Some 0 in
  let (ok1, val) := parse_int lc e_level 0 val in
  let v1 := match val with Some v => v | None => 0 end in
  let level := if ok1 && (v1 >=? INHERIT) then v1 else level in
  let (ok2, val) := parse_int lc e_ts 0 val in
  let v2 := match val with Some v => v | None => 0 end in
  let ts := if ok2 && (v2 >=? 0) then v2 >? 0 else ts in
  let (ok3, val) := parse_int lc e_tid 0 val in
  let v3 := match val with Some v => v | None => 0 end in
  let tid := if ok3 && (v3 >=? 0) then v3 >? 0 else tid in
  (level, ts, tid).
