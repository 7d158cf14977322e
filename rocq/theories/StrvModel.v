(* Model of /repo/src/gutil_strv.c *)
From Verif Require Import Base PtrvModel.

(* Strings are lists of characters 1..255 (unsigned), without the terminator. A heap of strings. *)
Definition str := list Z.
Definition strs := objects str.
(* An argument of type char*: NULL or string number n of the heap *)
Definition sarg := option nat.

(* strcmp, a parameter: only the sign of its result is known *)
Definition strcmp_fun := str -> str -> Z.

(* g_strdup *)
Definition strdup (h : strs) (i : nat) : res (strs * nat) :=
  do s <- look h i; Ok (h ++ [Some s], length h).

(* lines 45-50 *)
Definition strv_length (v : vec) : res Z := do n <- ptrv_length v; Ok (u32 n).

(* while (sv[k] && k < i) k++; line 63 *)
Fixpoint at_loop (fuel : nat) (b : blk) (k i : Z) : res Z :=
  match fuel with
  | O => Fail NoFuel
  | S f =>
      do p <- at_ b k;
      match p with
      | Some _ => if k <? i then at_loop f b (u32 (k + 1)) i else Ok k
      | None => Ok k
      end
  end.

(* lines 55-70 *)
Definition strv_at (v : vec) (i : Z) : res (option nat) :=
  match v with
  | Some b => do k <- at_loop (S (length b)) b 0 i; if k =? i then at_ b k else Ok None
  | None => Ok None
  end.

(* while (sv[k + 1]) k++; line 82 *)
Fixpoint last_loop (fuel : nat) (b : blk) (k : Z) : res Z :=
  match fuel with
  | O => Fail NoFuel
  | S f => do p <- at_ b (u32 (k + 1)); match p with Some _ => last_loop f b (u32 (k + 1)) | None => Ok k end
  end.

(* lines 75-86 *)
Definition strv_last (v : vec) : res (option nat) :=
  match v with
  | Some b =>
      do p <- at_ b 0;
      match p with
      | Some _ => do k <- last_loop (S (length b)) b 0; at_ b k
      | None => Ok None
      end
  | None => Ok None
  end.

(* !strcmp(x, s) *)
Definition same (scmp : strcmp_fun) (h : strs) (s : nat) (x : nat) : res bool :=
  do a <- look h x; do b <- look h s; Ok (scmp a b =? 0).

(* lines 101-105; i is an int *)
Fixpoint find_loop (test : nat -> res bool) (b : blk) (i : Z) : res Z :=
  match b with
  | [] => Fail OobRead
  | c :: t =>
      do p <- as_ptr c;
      match p with
      | Some x =>
          do e <- test x;
          if (e : bool) then Ok i else do i <- arith32 Strict (i + 1); find_loop test t i
      | None => Ok (-1)
      end
  end.

(* lines 92-108 *)
Definition strv_find (scmp : strcmp_fun) (h : strs) (v : vec) (s : sarg) : res Z :=
  match v, s with
  | Some b, Some s => find_loop (same scmp h s) b 0
  | _, _ => Ok (-1)
  end.

(* lines 130-138 *)
Definition strv_find_last (scmp : strcmp_fun) (h : strs) (v : vec) (s : sarg) : res Z :=
  match s with
  | Some s =>
      do n <- strv_length v;
      match v with
      | Some b => find_last_impl (same scmp h s) b 0 (Z.to_nat (s32 n))
      | None => Ok (-1)   (* the length is 0, sv is not looked at *)
      end
  | None => Ok (-1)
  end.

(* lines 143-149 *)
Definition strv_contains (scmp : strcmp_fun) (h : strs) (v : vec) (s : sarg) : res bool :=
  do i <- strv_find scmp h v s; Ok (i >=? 0).

(* lines 154-167 *)
Definition strv_add (h : strs) (v : vec) (s : sarg) : res (strs * vec) :=
  match s with
  | Some s =>
      do n <- strv_length v;
      let b := renew v (u32 (n + 2)) in
      do (h, x) <- strdup h s;
      do b <- wr b n (CPtr x);
      do b <- wr b (u32 (n + 1)) CNull;
      Ok (h, Some b)
  | None => Ok (h, v)
  end.

(* line 191: duplicates the arguments *)
Fixpoint addv_loop (h : strs) (b : blk) (n : Z) (args : list nat) : res (strs * blk * Z) :=
  match args with
  | [] => Ok (h, b, n)
  | s :: t =>
      do (h, x) <- strdup h s;
      do b <- wr b n (CPtr x);
      addv_loop h b (u32 (n + 1)) t
  end.

(* lines 172-196; the arguments in front of the terminating NULL *)
Definition strv_addv (h : strs) (v : vec) (args : list nat) : res (strs * vec) :=
  match args with
  | s :: t =>
      let n := u32 (len args) in
      do l <- strv_length v;
      let b := renew v (u32 (u32 (l + n) + 1)) in
      do (h, x) <- strdup h s;
      do b <- wr b l (CPtr x);
      do (h, b, l) <- addv_loop h b (u32 (l + 1)) t;
      do b <- wr b l CNull;
      Ok (h, Some b)
  | [] => Ok (h, v)
  end.

(* g_free of a string, or nothing (lines 207-209) *)
Definition drop_str (free_string : bool) (h : strs) (i : nat) : res strs :=
  if free_string then free_obj h i else Ok h.

(* lines 217-231 *)
Definition strv_remove_at (h : strs) (v : vec) (pos : Z) (free_string : bool) : res (strs * vec) :=
  match v with
  | Some b =>
      if pos >=? 0 then
        do n <- strv_length v;
        if pos <? s32 n then
          do (h, b) <- remove_impl u32 (drop_str free_string) h b pos (s32 n);
          Ok (h, Some b)
        else Ok (h, v)
      else Ok (h, v)
  | None => Ok (h, v)
  end.

(* lines 236-262 *)
Definition strv_remove (scmp : strcmp_fun) (h : strs) (v : vec) (s : sarg) (remove_all : bool) : res (strs * vec) :=
  match v, s with
  | Some b, Some s =>
      do pos <- find_loop (same scmp h s) b 0;
      if pos >=? 0 then
        do n <- strv_length v;
        do (h, b) <- remove_impl u32 (drop_str true) h b pos n;
        if remove_all then
          let n := u32 (n - 1) in
          let l := s32 (u32 (n - u32 pos)) in
          do (h, b) <- remove_rest (length b) u32 (fun h => same scmp h s) (drop_str true) h b pos n l;
          Ok (h, Some b)
        else Ok (h, Some b)
      else Ok (h, v)
  | _, _ => Ok (h, v)
  end.

(* lines 274-285 *)
Fixpoint dups_loop (fuel : nat) (scmp : strcmp_fun) (h : strs) (b : blk) (n pos l : Z) : res (strs * blk) :=
  match fuel with
  | O => Fail NoFuel
  | S f =>
      if pos <? n then
        do p <- at_ b pos;
        match p with
        | Some s =>
            do i <- find_last_impl (same scmp h s) b (pos + 1) (Z.to_nat (s32 (u32 (l - 1))));
            if i <? 0 then
              let pos := u32 (pos + 1) in
              dups_loop f scmp h b n pos (u32 (n - pos))
            else
              do (h, b) <- remove_impl u32 (drop_str true) h b (u32 (pos + 1 + i)) n;
              dups_loop f scmp h b (u32 (n - 1)) pos (u32 (i + 1))
        | None => Fail NullDeref
        end
      else Ok (h, b)
  end.

(* lines 267-288 *)
Definition strv_remove_dups (scmp : strcmp_fun) (h : strs) (v : vec) : res (strs * vec) :=
  match v with
  | Some b =>
      do n <- strv_length v;
      do (h, b) <- dups_loop (S (length b)) scmp h b n 0 n;
      Ok (h, Some b)
  | None => Ok (h, v)
  end.

(* while (sv1[len] && sv2[len]) len++; line 310 *)
Fixpoint common_loop (fuel : nat) (b1 b2 : blk) (n : Z) : res Z :=
  match fuel with
  | O => Fail NoFuel
  | S f =>
      do p <- at_ b1 n;
      match p with
      | None => Ok n
      | Some _ =>
          do q <- at_ b2 n;
          match q with
          | None => Ok n
          | Some _ => common_loop f b1 b2 (u32 (n + 1))
          end
      end
  end.

(* lines 313-317 *)
Fixpoint equal_loop (m : nat) (scmp : strcmp_fun) (h : strs) (b1 b2 : blk) (i : Z) : res bool :=
  match m with
  | O => Ok true
  | S m =>
      do p <- at_ b1 i; do q <- at_ b2 i;
      match p, q with
      | Some x, Some y =>
          do a <- look h x; do b <- look h y;
          if negb (scmp a b =? 0) then Ok false else equal_loop m scmp h b1 b2 (i + 1)
      | _, _ => Fail NullDeref
      end
  end.

(* lines 296-322; a1 and a2 are the addresses of the arrays *)
Definition strv_equal (scmp : strcmp_fun) (h : strs) (a1 : Z) (v1 : vec) (a2 : Z) (v2 : vec) : res bool :=
  match v1, v2 with
  | None, None => Ok true
  | None, Some b => do p <- at_ b 0; Ok (match p with None => true | _ => false end)
  | Some b, None => do p <- at_ b 0; Ok (match p with None => true | _ => false end)
  | Some b1, Some b2 =>
      if a1 =? a2 then Ok true
      else
        do n <- common_loop (S (length b1)) b1 b2 0;
        do p <- at_ b1 n; 
        match p with
        | None =>
            do q <- at_ b2 n;
            match q with
            | None => equal_loop (Z.to_nat n) scmp h b1 b2 0
            | Some _ => Ok false
            end
        | Some _ => Ok false
        end
  end.

(* The elements of an array as qsort gets them: they must all be alive *)
Fixpoint elements (h : strs) (b : blk) (n : nat) : res (list nat) :=
  match n with
  | O => Ok []
  | S m =>
      match b with
      | [] => Fail OobRead
      | c :: t =>
          do p <- as_ptr c;
          match p with
          | Some x => do _ <- look h x; do l <- elements h t m; Ok (x :: l)
          | None => Fail NullDeref
          end
      end
  end.

Definition content (h : strs) (i : nat) : str := match nth_error h i with Some (Some s) => s | _ => [] end.

(* lines 324-340; -x does not overflow, see good_strcmp *)
Definition str_order (scmp : strcmp_fun) (ascending : bool) (a b : str) : Z :=
  if ascending then scmp a b else - scmp a b.

(* qsort, a parameter: the comparison and the elements *)
Definition qsort_fun := (nat -> nat -> Z) -> list nat -> list nat.

(* lines 345-358 *)
Definition strv_sort (qsort : qsort_fun) (scmp : strcmp_fun) (h : strs) (v : vec) (ascending : bool) : res vec :=
  do n <- strv_length v;
  if n >? 0 then
    match v with
    | Some b =>
        do l <- elements h b (Z.to_nat n);
        let l := qsort (fun x y => str_order scmp ascending (content h x) (content h y)) l in
        Ok (Some (map CPtr l ++ skipn (Z.to_nat n) b))
    | None => Fail NullDeref
    end
  else Ok v.

(* bsearch of glibc (stdlib-bsearch.h): lo <= i < hi *)
Fixpoint bsearch_loop (fuel : nat) (cmp : nat -> res Z) (b : blk) (lo hi : Z) : res Z :=
  match fuel with
  | O => Fail NoFuel
  | S f =>
      if lo <? hi then
        let i := (lo + hi) / 2 in
        do p <- at_ b i;
        match p with
        | Some x =>
            do c <- cmp x;
            if c <? 0 then bsearch_loop f cmp b lo i
            else if c >? 0 then bsearch_loop f cmp b (i + 1) hi
            else Ok i
        | None => Fail NullDeref
        end
      else Ok (-1)
  end.

(* lines 367-386 *)
Definition strv_bsearch (scmp : strcmp_fun) (h : strs) (v : vec) (s : sarg) (ascending : bool) : res Z :=
  match s with
  | Some s =>
      do n <- strv_length v;
      if n >? 0 then
        match v with
        | Some b =>
            do k <- look h s;
            do i <- bsearch_loop (S (Z.to_nat n)) (fun x => do a <- look h x; Ok (str_order scmp ascending k a)) b 0 n;
            Ok (s32 i)
        | None => Fail NullDeref
        end
      else Ok (-1)
  | None => Ok (-1)
  end.

(* g_ascii_isspace *)
Definition is_space (c : Z) : bool := (c =? 32) || ((9 <=? c) && (c <=? 13) && negb (c =? 11)).
(* g_strchug: skips and moves; g_strchomp: cuts from the end *)
Fixpoint chug (s : str) : str := match s with c :: t => if is_space c then chug t else s | [] => [] end.
Fixpoint chomp_loop (n : nat) (s : str) : res str :=
  match n with
  | O => Ok s
  | S m => do c <- rd s (Z.of_nat m); if is_space c then chomp_loop m (firstn m s) else Ok s
  end.
Definition strstrip (s : str) : res str := let s := chug s in chomp_loop (length s) s.

(* lines 391-403 *)
Definition strv_strip (h : strs) (v : vec) : res strs :=
  match v with
  | Some b => walk (fun h x => do s <- look h x; do s <- strstrip s; Ok (upd h x (Some s))) h b
  | None => Ok h
  end.
