(* gutil_log_description (gutil_log.c, lines 656-684) on top of the model of the log configuration *)
From Coq Require Import String Ascii.
From Verif Require Import Base LogModel.

(* a string literal *)
Fixpoint lit (s : string) : str := match s with EmptyString => [] | String c s => Z.of_N (N_of_ascii c) :: lit s end.

(* gutil_log_levels, lines 87-98 *)
Definition levels : list (str * str) :=
  [(lit "none", lit "Disable log output"); (lit "error", lit "Errors only"); (lit "warning", lit "From warning level to errors");
   (lit "info", lit "From information level to errors"); (lit "debug", lit "From debug messages to errors");
   (lit "verbose", lit "From verbose trace messages to errors")].

(* "%-8s" *)
Definition pad8 (s : str) : str := s ++ repeat 32 (8 - length s).
(* "%d" of a number from 0 to 9 *)
Definition fmt_d (i : Z) : str := [48 + i].
Definition nl : str := [10].

(* lines 668-674: n turns are left. deflt is GLOG_LEVEL_DEFAULT (gutil_log.h, lines 60-66), which depends on the build. *)
Fixpoint desc_levels (n : nat) (deflt i : Z) (desc : str) : res str :=
  match n with
  | O => Ok desc
  | S n =>
      do (name, description) <- rd levels i;
      let desc := desc ++ (lit "   " ++ fmt_d i ++ lit ", ") in
      let desc := desc ++ (pad8 name ++ lit "    ") in
      let desc := desc ++ description in
      let desc := if i =? deflt then desc ++ lit " (default)" else desc in
      let desc := desc ++ nl in
      desc_levels n deflt (i + 1) desc
  end.
(* lines 677-679: n turns are left. "%s" with NULL is undefined. *)
Fixpoint desc_modules (n : nat) (c : conf) (modules : list nat) (i : Z) (desc : str) : res str :=
  match n with
  | O => Ok desc
  | S n =>
      do m <- rd modules i;
      do x <- the_mod c m;
      match m_name x with
      | Some name => desc_modules n c modules (i + 1) (desc ++ (lit "  " ++ name ++ nl))
      | None => Fail NullDeref
      end
  end.
(* lines 660-684; GLOG_LEVEL_VERBOSE is 5 *)
Definition description (deflt : Z) (c : conf) (modules : option (list nat)) (count : Z) : res str :=
  do desc <- desc_levels (Z.to_nat (VERBOSE + 1)) deflt 0 (lit "Log Levels:" ++ nl);
  match modules with
  | Some modules => desc_modules (Z.to_nat count) c modules 0 (desc ++ nl ++ lit "Log Modules:" ++ nl)
  | None => Ok desc
  end.
