(* What clients may expect of logging while their log functions do things. Uses the model for its types. *)
From Coq Require Import String Ascii List Sorted.
From Verif Require Import Base HexSpec LogModel LogSpec ReportModel.
Import ListNotations.
Open Scope Z_scope.

(* ---------------- what the client has done so far ---------------- *)

Definition conf_step (c : conf) (l : label) : conf :=
  match l with
  | LModule m x => Conf (upd (c_mods c) m x) (c_func c) (c_func2 c)
  | LFunc f => Conf (c_mods c) f (c_func2 c)
  | LFunc2 p => Conf (c_mods c) (c_func c) p
  | _ => c
  end.
(* the configuration after these labels *)
Definition conf_at (c : conf) (ls : list label) : conf := fold_left conf_step ls c.

Definition memory := list (option (list Z)).
Definition mem_step (m : memory) (l : label) : memory :=
  match l with
  | LPoke b i v => match nth_error m b with Some (Some x) => upd m b (Some (upd x (Z.to_nat i) v)) | _ => m end
  | LFree b => upd m b None
  | _ => m
  end.
(* the memory after these labels *)
Definition mem_at (m : memory) (ls : list label) : memory := fold_left mem_step ls m.

(* only bytes are in memory *)
Definition bytes_only (m : memory) (ls : list label) : Prop :=
  (forall b x, nth_error m b = Some (Some x) -> Forall is_byte x) /\ (forall b i v, In (LPoke b i v) ls -> is_byte v).

(* ---------------- messages ---------------- *)

(* the events of a point in time, newest first *)
Definition at_time (t : nat) (tr : list (nat * event)) : list event := map snd (filter (fun e => Nat.eqb (fst e) t) tr).

Definition deflt (c : conf) (v : Z) : Prop := exists x0, nth_error (c_mods c) 0 = Some x0 /\ m_level x0 = v.

(* with this configuration the message reaches a log function, by o. Without a module only the default level counts. *)
Definition delivered (c : conf) (m : option nat) (lv : Z) (text : list Z) (o : out) : Prop :=
  c_func2 c <> None /\
  (exists d v, deflt c d /\ match m with Some k => has_level (c_mods c) d k v | None => v = d end /\ wanted lv v) /\
  exists x, nth_error (c_mods c) (dest m) = Some x /\ goes c (dest m) x lv text (Some o).

(* dumps for this module and level begin *)
Definition is_enabled (c : conf) (m : option nat) (lv : Z) : Prop :=
  c_func2 c <> None /\ exists d v, deflt c d /\ has_level (c_mods c) d (dest m) v /\ wanted lv v.

(* the calls made for a message *)
Definition handled (c : conf) (m : option nat) (lv : Z) (text : list Z) (r : list event) : Prop :=
  (exists o, delivered c m lv text o /\ r = [ECall o]) \/ ((forall o, ~ delivered c m lv text o) /\ r = []).

(* decimal numbers *)
Fixpoint dec_from (acc : Z) (s : list Z) : option Z :=
  match s with
  | [] => Some acc
  | c :: s => if (48 <=? c) && (c <=? 57) then dec_from (10 * acc + (c - 48)) s else None
  end.
Definition natural (v : Z) (s : list Z) : Prop := dec_from 0 s = Some v /\ s <> [] /\ (len s = 1 \/ hd 48 s <> 48).
Definition decimal (v : Z) (s : list Z) : Prop := (0 <= v /\ natural v s) \/ (v < 0 /\ exists t, s = chars "-" ++ t /\ natural (- v) t).

(* the message of a failed assertion *)
Definition assertion (expr file : list Z) (line : Z) (text : list Z) : Prop :=
  exists n, decimal line n /\ text = chars "Assert " ++ expr ++ chars " failed at " ++ file ++ chars ":" ++ n.

(* the events of a label, newest first, with this configuration and memory *)
Definition happens (c : conf) (mem : memory) (l : label) (evs : list event) : Prop :=
  match l with
  | LLog m lv text => exists r, evs = r ++ [EMsg None m lv text] /\ handled c m lv text r
  | LAssert m lv e f n => - 2 ^ 31 <= n < 2 ^ 31 -> exists text r, assertion e f n text /\ evs = r ++ [EMsg None m lv text] /\ handled c m lv text r
  | LDump m lv p b n => exists id on, evs = [EDump id m lv p b n on] /\ (on = true <-> is_enabled c m lv)
  | LDumpBytes m lv p (Some b) => exists id n on, evs = [EDump id m lv p b n on] /\ (on = true <-> is_enabled c m lv) /\
      (on = true -> exists x, nth_error mem b = Some (Some x) /\ n = len x)
  | LGo => (exists id m lv text r, evs = r ++ [EMsg (Some id) m lv text] /\ handled c m lv text r) \/ exists id, evs = [EDone id]
  | _ => evs = []
  end.

(* ---------------- dumps ---------------- *)

(* the lines of a dump, newest first *)
Definition line_of (id : nat) (e : nat * event) : list (nat * option nat * Z * list Z) :=
  match e with (t, EMsg (Some i) m lv text) => if Nat.eqb i id then [(t, m, lv, text)] else [] | _ => [] end.
Definition lines_of (id : nat) (tr : list (nat * event)) : list (nat * option nat * Z * list Z) := flat_map (line_of id) tr.

(* the line for these bytes at the offset o *)
Definition shown (pr : Z -> bool) (prefix : list Z) (o : Z) (bytes text : list Z) : Prop :=
  exists n, hex_number 4 o n /\ text = prefix ++ n ++ chars ": " ++ dump_line pr bytes.

(* the dump of n bytes of the block b stays inside of it *)
Definition inside (m : memory) (b : nat) (n : Z) : Prop := exists x, nth_error m b = Some (Some x) /\ 0 <= n <= len x /\ n < 2 ^ 32.

(* a dump of the block b for the module m has begun and not returned *)
Definition unfinished (tr : list (nat * event)) (m : option nat) (b : nat) : Prop :=
  exists t id lv p n, In (t, EDump id m lv p b n true) tr /\ forall u, ~ In (u, EDone id) tr.

(* ---------------- careful clients ---------------- *)

(* the module is there, and it is not one which inherits in a circle *)
Definition settled (c : conf) (m : option nat) : Prop :=
  exists x d, nth_error (c_mods c) (dest m) = Some x /\ deflt c d /\ (silenced (c_mods c) (dest m) \/ exists v, has_level (c_mods c) d (dest m) v).

(* isprint knows the byte *)
Definition known_byte (d : dialect) (v : Z) : Prop := is_byte v /\ (d = Wrap \/ v < 128 \/ v = 255).

(* and all others which are in memory *)
Definition known_bytes (d : dialect) (m : memory) (ls : list label) : Prop :=
  (forall b x, nth_error m b = Some (Some x) -> Forall (known_byte d) x) /\ (forall b i v, In (LPoke b i v) ls -> known_byte d v).

(* what the client may do: not free what is being dumped, and not make a circle of what is being used *)
Definition allowed (c : conf) (mem : memory) (tr : list (nat * event)) (l : label) : Prop :=
  match l with
  | LLog m _ _ | LAssert m _ _ _ _ => settled c m
  | LDump m _ _ b n => settled c m /\ inside mem b n
  | LDumpBytes m _ _ (Some b) => settled c m /\ exists x, nth_error mem b = Some (Some x) /\ inside mem b (len x)
  | LFree b => forall m, ~ unfinished tr m b
  | LGo => forall m b, unfinished tr m b -> settled c m
  | _ => True
  end.

Definition careful (d : dialect) (isp : Z -> bool) (c : conf) (mem : memory) (ls : list label) : Prop :=
  forall l1 l l2 fuel s, ls = l1 ++ l :: l2 -> run fuel d isp (r_start c mem) l1 = Some (Ok s) -> allowed (conf_at c l1) (mem_at mem l1) (r_trace s) l.
