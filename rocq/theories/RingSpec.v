(* Specification of the ring: a double-ended queue. Uses the model only for the types of
   API calls (op), their results (out) and of the ring whose block gutil_ring_flatten returns. *)
From Verif Require Import Base RingModel.

(* What a client knows about a ring *)
Record deque := mkDq {
  items : list Z;        (* front first *)
  bound : Z;             (* maximum size, -1 if unlimited *)
  fn : option Z;         (* free function *)
  refs : Z               (* references; the ring exists as long as it is positive *)
}.

(* What happens to elements *)
Inductive event : Set :=
| EIn (x : Z)              (* put into the ring *)
| EOut (x : Z)             (* returned by a get *)
| EFree (f x : Z)          (* passed to the free function f *)
| ELost (x : Z).           (* removed while there was no free function *)

Definition with_items (q : deque) (l : list Z) : deque := mkDq l (bound q) (fn q) (refs q).

(* the elements l leave the ring in this order *)
Definition removed (q : deque) (l : list Z) : list event :=
  match fn q with
  | Some f => map (EFree f) l
  | None => map ELost l
  end.

(* how many elements a request to drop n out of them really drops *)
Definition dropping (n : Z) (l : list Z) : Z := Z.min (Z.max n 0) (len l).

(* [call q o r ev q']: in state q the call o may return r with the effects ev and lead to q' *)
Definition call (q : deque) (o : op) (r : out) (ev : list event) (q' : deque) : Prop :=
  match o with
  | Put x =>
      (r = OBool true /\ ev = [EIn x] /\ q' = with_items q (items q ++ [x])) \/
      (r = OBool false /\ ev = [] /\ q' = q /\ 0 <= bound q <= len (items q))
  | PutFront x =>
      (r = OBool true /\ ev = [EIn x] /\ q' = with_items q (x :: items q)) \/
      (r = OBool false /\ ev = [] /\ q' = q /\ 0 <= bound q <= len (items q))
  | Get =>
      match items q with
      | [] => r = OPtr 0 /\ ev = [] /\ q' = q
      | x :: t => r = OPtr x /\ ev = [EOut x] /\ q' = with_items q t
      end
  | GetLast =>
      (items q = [] /\ r = OPtr 0 /\ ev = [] /\ q' = q) \/
      (exists t x, items q = t ++ [x] /\ r = OPtr x /\ ev = [EOut x] /\ q' = with_items q t)
  | Drop n =>
      let k := dropping n (items q) in
      r = OInt k /\ ev = removed q (firstn (Z.to_nat k) (items q)) /\
      q' = with_items q (skipn (Z.to_nat k) (items q))
  | DropLast n =>
      exists keep gone, items q = keep ++ gone /\ len gone = dropping n (items q) /\
      r = OInt (len gone) /\ q' = with_items q keep /\
      (* back to front, except that an emptied ring is freed front to back *)
      ev = removed q (if len keep =? 0 then gone else rev gone)
  | Clear => r = ONone /\ ev = removed q (items q) /\ q' = with_items q []
  | Compact => r = ONone /\ ev = [] /\ q' = q
  | Reserve n => (exists b, r = OBool b /\ (bound q < 0 \/ n <= bound q -> b = true)) /\ ev = [] /\ q' = q
  | SetMaxSize m =>
      let m := if m <? 0 then -1 else m in
      r = ONone /\
      let k := if (m =? bound q) || (m <? 0) then 0 else dropping (len (items q) - m) (items q) in
      ev = removed q (firstn (Z.to_nat k) (items q)) /\
      q' = mkDq (skipn (Z.to_nat k) (items q)) m (fn q) (refs q)
  | MaxSize => r = OInt (bound q) /\ ev = [] /\ q' = q
  | SetFree f => r = ONone /\ ev = [] /\ q' = mkDq (items q) (bound q) f (refs q)
  | DataAt i => r = OPtr (if i <? 0 then 0 else nth (Z.to_nat i) (items q) 0) /\ ev = [] /\ q' = q
  | Size => r = OInt (len (items q)) /\ ev = [] /\ q' = q
  | CanPut n => r = OBool ((bound q <? 0) || (len (items q) + n <=? bound q)) /\ ev = [] /\ q' = q
  | Flatten => (exists p, r = OBlock p (len (items q)) /\ (p = None <-> items q = [])) /\ ev = [] /\ q' = q
  | Ref => r = ONone /\ ev = [] /\ q' = mkDq (items q) (bound q) (fn q) (refs q + 1)
  | Unref =>
      r = ONone /\
      if refs q =? 1
      then ev = match fn q with Some f => map (EFree f) (items q) | None => map ELost (items q) end /\
           q' = mkDq [] (bound q) (fn q) 0
      else ev = [] /\ q' = mkDq (items q) (bound q) (fn q) (refs q - 1)
  end.

Inductive calls : deque -> list op -> list out -> list event -> deque -> Prop :=
| calls_nil q : calls q [] [] [] q
| calls_cons q o r ev q1 os rs evs q2 :
    0 < refs q -> call q o r ev q1 -> calls q1 os rs evs q2 ->
    calls q (o :: os) (r :: rs) (ev ++ evs) q2.

(* calls of the free function among the events *)
Definition frees (evs : list event) : list (Z * Z) :=
  flat_map (fun e => match e with EFree f x => [(f, x)] | _ => [] end) evs.

(* a new ring *)
Definition new_dq (max : Z) (f : option Z) : deque := mkDq [] (if max <? 0 then -1 else max) f 1.

(* The client holds n references and uses the ring only while it holds one *)
Fixpoint owned (n : Z) (ops : list op) : Prop :=
  match ops with
  | [] => True
  | o :: t =>
      0 < n /\
      owned (match o with Ref => n + 1 | Unref => n - 1 | _ => n end) t
  end.

(* the references left to it afterwards *)
Fixpoint left_ (n : Z) (ops : list op) : Z :=
  match ops with
  | [] => n
  | Ref :: t => left_ (n + 1) t
  | Unref :: t => left_ (n - 1) t
  | _ :: t => left_ n t
  end.

(* No element is added after gutil_ring_flatten, unless gutil_ring_compact was called in between *)
Fixpoint tame (flat : bool) (ops : list op) : Prop :=
  match ops with
  | [] => True
  | Put _ :: t | PutFront _ :: t => flat = false /\ tame flat t
  | Flatten :: t => tame true t
  | Compact :: t => tame false t
  | _ :: t => tame flat t
  end.

(* Parameters are ints; gutil_ring_can_put is not asked about absurd numbers *)
Definition fair (o : op) : Prop :=
  match o with
  | Drop n | DropLast n | Reserve n | SetMaxSize n | DataAt n => in_s32 n
  | CanPut n => -2^31 <= n < 2^30
  | _ => True
  end.

(* the largest capacity the client may ask for in ops is k *)
Definition demand (k : Z) (ops : list op) : Prop :=
  len ops <= k /\ forall n, In (Reserve n) ops -> n <= k.

(* The limit b is never lowered (it may be raised or removed) *)
Fixpoint raising (b : Z) (ops : list op) : Prop :=
  match ops with
  | [] => True
  | SetMaxSize m :: t => (m < 0 \/ 0 <= b <= m) /\ raising (if m <? 0 then -1 else m) t
  | _ :: t => raising b t
  end.

(* the elements which the ring accepted *)
Fixpoint accepted (ops : list op) (outs : list out) : list Z :=
  match ops, outs with
  | Put x :: os, OBool true :: rs | PutFront x :: os, OBool true :: rs => x :: accepted os rs
  | _ :: os, _ :: rs => accepted os rs
  | _, _ => []
  end.

(* the (non-NULL) elements which the ring returned for keeping *)
Fixpoint taken (ops : list op) (outs : list out) : list Z :=
  match ops, outs with
  | Get :: os, OPtr p :: rs | GetLast :: os, OPtr p :: rs =>
      if p =? 0 then taken os rs else p :: taken os rs
  | _ :: os, _ :: rs => taken os rs
  | _, _ => []
  end.

(* only non-NULL elements are put, and the free function is never removed *)
Definition tracked (o : op) : Prop :=
  match o with
  | Put x | PutFront x => x <> 0
  | SetFree f => f <> None
  | _ => True
  end.

(* The ring behaves like a sequence c: as far as its size and elements can be seen *)
Definition shows (d : dialect) (r : ring) (c : list Z) : Prop :=
  size d r = Ok (len c) /\
  forall i, in_s32 i -> data_at d r i = Ok (if i <? 0 then 0 else nth (Z.to_nat i) c 0).

(* free functions may do something only when called by gutil_ring_clear; nobody flattens the ring
   or drops a reference *)
Inductive gentle : script -> Prop :=
| gentle_intro l :
    (forall o inner, In (o, inner) l ->
       fair o /\ o <> Flatten /\ o <> Unref /\ (o = Clear \/ inner = []) /\ gentle_all inner) ->
    gentle (Script l)
with gentle_all : list script -> Prop :=
| gentle_nil : gentle_all []
| gentle_cons s t : gentle s -> gentle_all t -> gentle_all (s :: t).
