(* Model of the integer parsers of /repo/src/gutil_misc.c, with the GLib and libc functions they
   call. A C string is the list of its characters up to the terminating NUL; a pointer into it is
   the rest of the string from there. *)
From Verif Require Import Base.

(* ---------------- GLib and libc ---------------- *)

(* g_ascii_isspace: GLib's table does not class the vertical tab (11) as a space *)
Definition g_isspace (c : Z) : bool := (c =? 32) || (c =? 9) || (c =? 10) || (c =? 12) || (c =? 13).

(* isspace of libc in the C locale *)
Definition isspace (c : Z) : bool := (c =? 32) || ((9 <=? c) && (c <=? 13)).

Fixpoint drop_while (p : Z -> bool) (s : list Z) : list Z :=
  match s with
  | [] => []
  | c :: t => if p c then drop_while p t else s
  end.

(* g_strchug and g_strchomp; g_strstrip applies both *)
Definition chug (s : list Z) : list Z := drop_while g_isspace s.
Definition chomp (s : list Z) : list Z := rev (drop_while g_isspace (rev s)).

(* Where implementations of strtoll/strtoull differ:
   - is *endptr set if the base is invalid (glibc: no; GLib's fallback: yes);
   - is errno set to EINVAL if there is no number (glibc and GLib: no; POSIX allows it). *)
Record libc := mkLibc { bad_base_end : bool; no_number_einval : bool }.

(* the value of a digit or letter *)
Definition alnum (c : Z) : option Z :=
  if (48 <=? c) && (c <=? 57) then Some (c - 48)
  else if (65 <=? c) && (c <=? 90) then Some (c - 55)
  else if (97 <=? c) && (c <=? 122) then Some (c - 87)
  else None.

(* the digits: None is the overflow flag. Returns the rest of the string too. *)
Fixpoint scan (b : Z) (acc : option Z) (s : list Z) : option Z * list Z :=
  match s with
  | [] => (acc, [])
  | c :: t =>
      match alnum c with
      | None => (acc, s)
      | Some v =>
          if v >=? b then (acc, s)
          else
            let acc := match acc with
                       | None => None
                       | Some u =>
                           if (u >? (2^64 - 1) / b) || ((u =? (2^64 - 1) / b) && (v >? (2^64 - 1) mod b))
                           then None else Some (u * b + v)
                       end in
            scan b acc t
      end
  end.

(* what strtoll and strtoull have in common: sign, magnitude (None: over 64 bits), end pointer
   (None: not set), errno = EINVAL *)
Record num := mkNum { n_neg : bool; n_mag : option Z; n_end : option (list Z); n_einval : bool }.

Definition strto (lc : libc) (s : list Z) (base : Z) : num :=
  if (base <? 0) || (base =? 1) || (base >? 36)
  then mkNum false (Some 0) (if bad_base_end lc then Some s else None) true
  else
    let none := mkNum false (Some 0) (Some s) (no_number_einval lc) in
    match drop_while isspace s with
    | [] => none
    | c :: t =>
        let (neg, t1) := if c =? 45 then (true, t) else if c =? 43 then (false, t) else (false, c :: t) in
        let '(b, t2, pfx) :=
          match t1 with
          | c0 :: r =>
              if c0 =? 48 then
                if ((base =? 0) || (base =? 16)) &&
                   match r with x :: _ => (x =? 88) || (x =? 120) | [] => false end
                then (16, tl r, true)
                else if base =? 0 then (8, t1, false) else (base, t1, false)
              else if base =? 0 then (10, t1, false) else (base, t1, false)
          | [] => if base =? 0 then (10, t1, false) else (base, t1, false)
          end in
        let (mag, e) := scan b (Some 0) t2 in
        if (length e =? length t2)%nat then
          (* nothing converted; "0x" counts as the number 0 *)
          if pfx then mkNum false (Some 0) (Some (tl t1)) false else none
        else mkNum neg mag (Some e) false
    end.

(* g_ascii_strtoll: value, whether errno = ERANGE, end, whether errno = EINVAL *)
Definition strtoll (lc : libc) (s : list Z) (base : Z) : Z * bool * option (list Z) * bool :=
  let n := strto lc s base in
  match n_mag n with
  | None => (if n_neg n then -2^63 else 2^63 - 1, true, n_end n, n_einval n)
  | Some m =>
      if n_neg n then
        if m >? 2^63 then (-2^63, true, n_end n, n_einval n) else (- m, false, n_end n, n_einval n)
      else
        if m >? 2^63 - 1 then (2^63 - 1, true, n_end n, n_einval n) else (m, false, n_end n, n_einval n)
  end.

(* g_ascii_strtoull *)
Definition strtoull (lc : libc) (s : list Z) (base : Z) : Z * bool * option (list Z) * bool :=
  let n := strto lc s base in
  match n_mag n with
  | None => (2^64 - 1, true, n_end n, n_einval n)
  | Some m => (if n_neg n then u64 (- m) else m, false, n_end n, n_einval n)
  end.

(* ---------------- gutil_misc.c ---------------- *)

(* gutil_strstrip, gutil_misc.c:246-263; the string is not empty. The copy is freed by the
   caller. *)
Definition strstrip (s : list Z) : list Z :=
  if g_isspace (hd 0 s) || g_isspace (last s 0) then chomp (chug s) else s.

Definition at_end (e : option (list Z)) : bool := match e with Some [] => true | _ => false end.

(* A call returns the result and the variable pointed to by value (None: a NULL pointer) *)
Definition store (value : option Z) (v : Z) : option Z := match value with Some _ => Some v | None => None end.

(* gutil_parse_int64, gutil_misc.c:299-326; str is None for NULL *)
Definition parse_int64 (lc : libc) (str : option (list Z)) (base : Z) (value : option Z) : bool * option Z :=
  match str with
  | Some (c :: t) =>
      let '(ll, erange, e, einval) := strtoll lc (strstrip (c :: t)) base in
      if at_end e && negb (((ll =? 2^63 - 1) || (ll =? -2^63)) && erange) && negb ((ll =? 0) && einval)
      then (true, store value ll) else (false, value)
  | _ => (false, value)
  end.

(* gutil_parse_int, gutil_misc.c:265-280 *)
Definition parse_int (lc : libc) (str : option (list Z)) (base : Z) (value : option Z) : bool * option Z :=
  match parse_int64 lc str base (Some 0) with
  | (true, Some ll) => if (ll >=? -2^31) && (ll <=? 2^31 - 1) then (true, store value ll) else (false, value)
  | _ => (false, value)
  end.

(* gutil_parse_uint64, gutil_misc.c:328-362 *)
Definition parse_uint64 (lc : libc) (str : option (list Z)) (base : Z) (value : option Z) : bool * option Z :=
  match str with
  | Some (c :: t) =>
      if c =? 45 then (false, value)
      else
        let stripped := strstrip (c :: t) in
        if hd 0 stripped =? 45 then (false, value)
        else
          let '(ull, erange, e, einval) := strtoull lc stripped base in
          if at_end e && negb ((ull =? 2^64 - 1) && erange) && negb ((ull =? 0) && einval)
          then (true, store value ull) else (false, value)
  | _ => (false, value)
  end.

(* gutil_parse_uint, gutil_misc.c:282-297 *)
Definition parse_uint (lc : libc) (str : option (list Z)) (base : Z) (value : option Z) : bool * option Z :=
  match parse_uint64 lc str base (Some 0) with
  | (true, Some ull) => if ull <=? 2^32 - 1 then (true, store value ull) else (false, value)
  | _ => (false, value)
  end.
