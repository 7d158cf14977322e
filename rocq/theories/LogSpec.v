(* What logging is for. Uses the model for its types only. *)
From Coq Require Import String Ascii.
From Coq Require Import List.
From Verif Require Import Base HexSpec ParseSpec LogModel.
Import ListNotations.
Open Scope Z_scope.

(* the characters of a string literal *)
Fixpoint chars (s : string) : list Z :=
  match s with EmptyString => [] | String c s => Z.of_N (N_of_ascii c) :: chars s end.

(* f gives this result however many calls may be nested and however many times loops may turn, from
   some number on *)
Definition eventually {A} (f : nat -> res A) (a : A) : Prop := exists n, forall fuel, (n <= fuel)%nat -> f fuel = Ok a.
Definition never {A} (f : nat -> res A) : Prop := forall fuel, f fuel = Fail NoFuel.

(* ---------------- levels ---------------- *)

Definition off (x : module) : Prop := Z.testbit (m_flags x) 1 = true.
Definition inherits (x : module) : Prop := m_level x = -1.

(* l are the modules found from m on going from each to its parent; the last one has the parent p *)
Inductive path (mods : list module) : nat -> list module -> option nat -> Prop :=
| path_one m x : nth_error mods m = Some x -> path mods m [x] (m_parent x)
| path_up m x q l p : nth_error mods m = Some x -> m_parent x = Some q -> path mods q l p -> path mods m (x :: l) p.

(* m or the modules it inherits from are disabled *)
Definition silenced (mods : list module) (m : nat) : Prop :=
  exists a x p, path mods m (a ++ [x]) p /\ Forall inherits a /\ off x.

(* v is the level of the nearest module on the way which does not inherit, the default if all do *)
Definition has_level (mods : list module) (dflt : Z) (m : nat) (v : Z) : Prop :=
  exists a x p, path mods m (a ++ [x]) p /\ Forall inherits a /\ Forall (fun x => ~ off x) (a ++ [x]) /\
    ((~ inherits x /\ v = m_level x) \/ (inherits x /\ p = None /\ v = dflt)).

(* messages of the level lv are wanted if the level is v *)
Definition wanted (lv v : Z) : Prop := lv = -2 \/ (0 < lv /\ lv <= v).

(* Where a message of the module m (which is x) goes *)
Definition goes (c : conf) (m : nat) (x : module) (lv : Z) (text : list Z) (o : option out) : Prop :=
  exists p, (m_proc x = Some p \/ (m_proc x = None /\ c_func2 c = Some p)) /\
    ((p <> PDefault /\ o = Some (OProc p m lv text)) \/
     (p = PDefault /\ c_func c = None /\ o = None) \/
     (p = PDefault /\ exists f, c_func c = Some f /\
        ((Z.testbit (m_flags x) 0 = true /\ o = Some (OFunc f None lv text)) \/ (Z.testbit (m_flags x) 0 = false /\ o = Some (OFunc f (m_name x) lv text))))).

(* The module which is meant by m, and the case of NULL in which it is treated like any other module *)
Definition dest (m : option nat) : nat := match m with Some m => m | None => O end.
Definition plain (c : conf) (m : option nat) : Prop :=
  m = None -> forall x, nth_error (c_mods c) 0 = Some x -> ~ off x /\ (m_level x <> -1 \/ m_parent x = None).

(* ---------------- dump ---------------- *)

(* isprint knows all characters of the data: without Wrap it is undefined for some negative ones *)
Definition portable (d : dialect) (data : list Z) : Prop := d = Wrap \/ Forall (fun b => b < 128 \/ b = 255) data.

(* The value of upper case hexadecimal digits, after digits with the value acc *)
Fixpoint hex_from (acc : Z) (s : list Z) : option Z :=
  match s with
  | [] => Some acc
  | c :: s => if (48 <=? c) && (c <=? 57) then hex_from (16 * acc + (c - 48)) s
              else if (65 <=? c) && (c <=? 70) then hex_from (16 * acc + (c - 55)) s else None
  end.
(* The number v in at least w digits, no more than needed *)
Definition hex_number (w : Z) (v : Z) (s : list Z) : Prop :=
  hex_from 0 s = Some v /\ w <= len s /\ (len s = w \/ hd 48 s <> 48).

(* the lines of a dump of data, the first byte of which has the offset o *)
Inductive dump_lines (printable : Z -> bool) (prefix : list Z) : Z -> list Z -> list (list Z) -> Prop :=
| dl_end o : dump_lines printable prefix o [] []
| dl_last o d n : d <> [] -> len d <= 16 -> hex_number 4 o n ->
    dump_lines printable prefix o d [prefix ++ n ++ chars ": " ++ dump_line printable d]
| dl_more o d e n l : len d = 16 -> e <> [] -> hex_number 4 o n -> dump_lines printable prefix (o + 16) e l ->
    dump_lines printable prefix o (d ++ e) ((prefix ++ n ++ chars ": " ++ dump_line printable d) :: l).

(* ---------------- options ---------------- *)

Definition words : list (list Z) := map chars ["none"; "error"; "warning"; "info"; "debug"; "verbose"]%string.

(* s means the level v: a digit or the beginning of a word *)
Definition names_level (s : list Z) (v : Z) : Prop :=
  (0 <= v <= 5 /\ s = [48 + v]) \/
  (s <> [] /\ 0 <= v /\ exists rest, nth_error words (Z.to_nat v) = Some (s ++ rest)).

(* equal if the case of letters does not matter *)
Definition fold_case (c : Z) : Z := if (65 <=? c) && (c <=? 90) then c + 32 else c.
Definition same_name (a b : list Z) : Prop := map fold_case a = map fold_case b.

Definition name_of (c : conf) (m : nat) : option (list Z) :=
  match nth_error (c_mods c) m with Some x => m_name x | None => None end.

(* m is the first of the modules which has the name *)
Definition first_named (c : conf) (modules : list nat) (name : list Z) (m : nat) : Prop :=
  exists a b n, modules = a ++ m :: b /\ name_of c m = Some n /\ same_name n name /\
    forall k kn, In k a -> name_of c k = Some kn -> ~ same_name kn name.

(* c' is c except that the module m has the level v *)
Definition only_level (c c' : conf) (m : nat) (v : Z) : Prop :=
  c_func c' = c_func c /\ c_func2 c' = c_func2 c /\ (forall k, k <> m -> nth_error (c_mods c') k = nth_error (c_mods c) k) /\
  exists x x', nth_error (c_mods c) m = Some x /\ nth_error (c_mods c') m = Some x' /\ m_level x' = v /\
    m_name x' = m_name x /\ m_parent x' = m_parent x /\ m_proc x' = m_proc x /\ m_flags x' = m_flags x.

(* ---------------- log type ---------------- *)

Definition known : list (list Z * func) :=
  [(chars "stdout", FStdout); (chars "stderr", FStderr); (chars "glib", FGlib); (chars "syslog", FSyslog)].

(* c' is c except for the log function f and the name of the default module, if given *)
Definition only_type (c c' : conf) (f : option func) (name : option (list Z)) : Prop :=
  c_func c' = f /\ c_func2 c' = c_func2 c /\ (forall k, k <> O -> nth_error (c_mods c') k = nth_error (c_mods c) k) /\
  exists x x', nth_error (c_mods c) 0 = Some x /\ nth_error (c_mods c') 0 = Some x' /\
    m_name x' = match name with Some n => Some n | None => m_name x end /\
    m_parent x' = m_parent x /\ m_proc x' = m_proc x /\ m_flags x' = m_flags x /\ m_level x' = m_level x.

(* a sequence of calls, each with a type and a name *)
Inductive type_calls : conf -> list (option (list Z) * option (list Z)) -> conf -> list sys_event -> Prop :=
| tc_nil c : type_calls c [] c []
| tc_cons c t n b c1 ev l c2 ev2 : set_type c t n = Ok (b, c1, ev) -> type_calls c1 l c2 ev2 ->
    type_calls c ((t, n) :: l) c2 (ev ++ ev2).

(* is syslog open after these calls, given that it was (not) before; None if a call was wrong: opened
   when open or closed when not *)
Fixpoint sys_open (o : bool) (ev : list sys_event) : option bool :=
  match ev with
  | [] => Some o
  | Openlog :: ev => if o then None else sys_open true ev
  | Closelog :: ev => if o then sys_open false ev else None
  end.

(* ---------------- timestamps ---------------- *)

(* the format after these calls *)
Definition format_after (l : list (option (list Z))) : list Z :=
  match last l None with Some f => f | None => chars "%Y-%m-%d %H:%M:%S " end.

(* ---------------- lines ---------------- *)

(* what the buffer which is returned contains *)
Definition block (h : heap) (buf : list (option Z)) (b : buffer) : option (list (option Z)) :=
  match b with BCaller => Some buf | BHeap a => match nth_error h a with Some x => x | None => None end end.

(* [s] and a space, if there is something *)
Definition tag (s : option (list Z)) : list Z := match s with Some s => chars "[" ++ s ++ chars "] " | None => [] end.
Definition non_empty (s : option (list Z)) : option (list Z) := match s with Some [] => None | _ => s end.
Definition severity (colon : string) (level : Z) : list Z :=
  if level =? 1 then chars ("ERROR" ++ colon ++ " ")%string else if level =? 2 then chars ("WARNING" ++ colon ++ " ")%string else [].

(* characters of a C string *)
Definition no_nul (s : list Z) : Prop := Forall (fun c => c <> 0) s.
(* all blocks allocated in addition have been freed *)
Definition no_leak (h h' : heap) : Prop := exists n, h' = h ++ repeat None n.
