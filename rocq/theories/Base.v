(* Common base of the model: outcomes, C integers, checked memory blocks. *)
From Coq Require Export List ZArith Lia Bool.
From Coq Require Import ZifyBool.
Export ListNotations.
#[global] Open Scope Z_scope.

(* Every way in which a modelled C function can go wrong. *)
Inductive fault : Set :=
| OobRead        (* read outside the memory block *)
| OobWrite       (* write outside the memory block *)
| UninitRead     (* read of memory that was never written *)
| SignedOverflow (* signed arithmetic out of range of its C type *)
| BadShift       (* shift by a negative or too large amount, or out of range *)
| DivByZero
| NullDeref
| NullCall
| UseAfterFree
| Misaligned     (* access through a pointer that is not aligned for its type *)
| DoubleFree
| AssertFail     (* GASSERT in a debug build *)
| AllocAbort     (* g_malloc called with an absurd size aborts the process *)
| NoFuel.        (* the loop did not finish within the fuel given *)

Inductive res (A : Type) : Type :=
| Ok (a : A)
| Fail (f : fault).
Arguments Ok {A} a.
Arguments Fail {A} f.

Definition bind {A B : Type} (x : res A) (k : A -> res B) : res B :=
  match x with
  | Ok a => k a
  | Fail f => Fail f
  end.

Notation "'do' x <- m ; k" := (bind m (fun x => k))
  (at level 200, x pattern, m at level 100, k at level 200, right associativity).

Definition is_ok {A} (x : res A) : bool := match x with Ok _ => true | Fail _ => false end.

(* How signed overflow is treated: Strict is ISO C (undefined, hence a fault);
   Wrap is two's complement, which is what gcc usually generates.
   The Makefile builds with -O2 and without -fwrapv (/repo/Makefile:106). *)
Inductive dialect : Set := Strict | Wrap.

(* C integer types *)
Definition u8  (z : Z) : Z := z mod 2^8.
Definition u32 (z : Z) : Z := z mod 2^32.
Definition u64 (z : Z) : Z := z mod 2^64.
Definition s32 (z : Z) : Z := (z + 2^31) mod 2^32 - 2^31.
Definition s64 (z : Z) : Z := (z + 2^63) mod 2^64 - 2^63.

Definition in_u32 (z : Z) : Prop := 0 <= z < 2^32.
Definition in_u64 (z : Z) : Prop := 0 <= z < 2^64.
Definition in_s32 (z : Z) : Prop := -2^31 <= z < 2^31.
Definition in_s64 (z : Z) : Prop := -2^63 <= z < 2^63.
Definition is_byte (b : Z) : Prop := 0 <= b < 256.

Definition arith32 (d : dialect) (z : Z) : res Z :=
  match d with
  | Wrap => Ok (s32 z)
  | Strict => if (-2^31 <=? z) && (z <? 2^31) then Ok z else Fail SignedOverflow
  end.

Definition arith64 (d : dialect) (z : Z) : res Z :=
  match d with
  | Wrap => Ok (s64 z)
  | Strict => if (-2^63 <=? z) && (z <? 2^63) then Ok z else Fail SignedOverflow
  end.

(* (1 << n) in type int. ISO C: undefined unless 0 <= n < 31. *)
Definition one_shl32 (n : Z) : res Z :=
  if (0 <=? n) && (n <? 31) then Ok (2^n) else Fail BadShift.

(* (G_GINT64_CONSTANT(1) << n). ISO C: undefined unless 0 <= n < 63;
   with two's complement n = 63 gives the most negative value. *)
Definition one_shl64 (d : dialect) (n : Z) : res Z :=
  if (0 <=? n) && (n <? 63) then Ok (2^n)
  else if n =? 63 then
    match d with Strict => Fail BadShift | Wrap => Ok (- 2^63) end
  else Fail BadShift.

(* Memory blocks: a list of cells with checked access *)
Definition len {A} (l : list A) : Z := Z.of_nat (length l).

Definition rd {A} (l : list A) (i : Z) : res A :=
  if (0 <=? i) && (i <? len l) then
    match nth_error l (Z.to_nat i) with
    | Some a => Ok a
    | None => Fail OobRead
    end
  else Fail OobRead.

Fixpoint upd {A} (l : list A) (n : nat) (a : A) : list A :=
  match l, n with
  | [], _ => []
  | _ :: t, O => a :: t
  | h :: t, S m => h :: upd t m a
  end.

Definition wr {A} (l : list A) (i : Z) (a : A) : res (list A) :=
  if (0 <=? i) && (i <? len l) then Ok (upd l (Z.to_nat i) a) else Fail OobWrite.

(* the part of a block between two offsets *)
Definition slice {A} (l : list A) (from upto : Z) : list A :=
  firstn (Z.to_nat (upto - from)) (skipn (Z.to_nat from) l).

(* ------------------------------------------------------------------ *)
(* Basic facts *)

Lemma u8_range z : 0 <= u8 z < 256.
Proof. unfold u8. change (2^8) with 256. apply Z.mod_pos_bound. lia. Qed.
Lemma u32_range z : in_u32 (u32 z).
Proof. apply Z.mod_pos_bound. lia. Qed.
Lemma u64_range z : in_u64 (u64 z).
Proof. apply Z.mod_pos_bound. lia. Qed.
Lemma s32_range z : in_s32 (s32 z).
Proof. unfold s32, in_s32. pose proof (Z.mod_pos_bound (z + 2^31) (2^32) ltac:(lia)). lia. Qed.
Lemma s64_range z : in_s64 (s64 z).
Proof. unfold s64, in_s64. pose proof (Z.mod_pos_bound (z + 2^63) (2^64) ltac:(lia)). lia. Qed.
Lemma u32_id z : in_u32 z -> u32 z = z.
Proof. intros. apply Z.mod_small. exact H. Qed.
Lemma u64_id z : in_u64 z -> u64 z = z.
Proof. intros. apply Z.mod_small. exact H. Qed.
Lemma s32_id z : in_s32 z -> s32 z = z.
Proof. unfold s32, in_s32. intros. rewrite Z.mod_small; lia. Qed.
Lemma s64_id z : in_s64 z -> s64 z = z.
Proof. unfold s64, in_s64. intros. rewrite Z.mod_small; lia. Qed.

Lemma len_nonneg {A} (l : list A) : 0 <= len l.
Proof. unfold len. lia. Qed.
Lemma len_app {A} (l m : list A) : len (l ++ m) = len l + len m.
Proof. unfold len. rewrite app_length. lia. Qed.
Lemma len_cons {A} (a : A) l : len (a :: l) = 1 + len l.
Proof. unfold len. simpl length. lia. Qed.
Lemma len_nil {A} : len (@nil A) = 0.
Proof. reflexivity. Qed.

Lemma upd_length {A} (l : list A) n a : length (upd l n a) = length l.
Proof. revert n; induction l; intros [|n]; simpl; auto. Qed.
Lemma len_upd {A} (l : list A) n a : len (upd l n a) = len l.
Proof. unfold len. rewrite upd_length. reflexivity. Qed.

Lemma nth_error_upd_eq {A} (l : list A) n a : (n < length l)%nat -> nth_error (upd l n a) n = Some a.
Proof. revert n; induction l; intros [|n]; simpl; intros; try lia; auto. apply IHl. lia. Qed.
Lemma nth_error_upd_ne {A} (l : list A) n m a : n <> m -> nth_error (upd l n a) m = nth_error l m.
Proof.
  revert n m; induction l; intros [|n] [|m]; simpl; intros; auto; try congruence.
Qed.

Lemma upd_app_r {A} (l r : list A) n a :
  (length l <= n)%nat -> upd (l ++ r) n a = l ++ upd r (n - length l) a.
Proof.
  revert n; induction l; intros n H; simpl in *.
  - f_equal. lia.
  - destruct n; [lia|]. simpl. f_equal. apply IHl. lia.
Qed.
Lemma upd_app_l {A} (l r : list A) n a :
  (n < length l)%nat -> upd (l ++ r) n a = upd l n a ++ r.
Proof.
  revert n; induction l; intros n H; simpl in *; [lia|].
  destruct n; simpl; auto. f_equal. apply IHl. lia.
Qed.

Lemma rd_ok {A} (l : list A) i a :
  rd l i = Ok a <-> 0 <= i /\ nth_error l (Z.to_nat i) = Some a.
Proof.
  unfold rd, len. split.
  - destruct (0 <=? i) eqn:E1; [|discriminate].
    destruct (i <? Z.of_nat (length l)) eqn:E2; [|discriminate]. simpl.
    destruct (nth_error l (Z.to_nat i)) eqn:E; intros H; inversion H; subst. split; [lia|reflexivity].
  - intros [H1 H2].
    assert (Z.to_nat i < length l)%nat by (apply nth_error_Some; congruence).
    replace (0 <=? i) with true by lia.
    replace (i <? Z.of_nat (length l)) with true by lia.
    simpl. rewrite H2. reflexivity.
Qed.
Lemma rd_in {A} (l : list A) i : 0 <= i < len l -> exists a, rd l i = Ok a.
Proof.
  intros H. destruct (nth_error l (Z.to_nat i)) eqn:E.
  - exists a. apply rd_ok. split; [lia|auto].
  - apply nth_error_None in E. unfold len in H. lia.
Qed.
Lemma rd_oob {A} (l : list A) i : ~ (0 <= i < len l) -> rd l i = Fail OobRead.
Proof.
  intros H. unfold rd. destruct (0 <=? i) eqn:E1; destruct (i <? len l) eqn:E2; simpl; auto. lia.
Qed.
Lemma wr_in {A} (l : list A) i a : 0 <= i < len l -> wr l i a = Ok (upd l (Z.to_nat i) a).
Proof.
  intros H. unfold wr. replace (0 <=? i) with true by lia.
  replace (i <? len l) with true by lia. reflexivity.
Qed.

Lemma slice_len {A} (l : list A) a b : 0 <= a <= b -> b <= len l -> len (slice l a b) = b - a.
Proof.
  unfold slice, len. intros. rewrite firstn_length, skipn_length. lia.
Qed.

Lemma slice_cons {A} (l : list A) a b x :
  rd l a = Ok x -> a < b -> slice l a b = x :: slice l (a + 1) b.
Proof.
  intros H Hab. apply rd_ok in H. destruct H as [H0 H].
  unfold slice.
  replace (Z.to_nat (b - a)) with (S (Z.to_nat (b - (a + 1)))) by lia.
  replace (Z.to_nat (a + 1)) with (S (Z.to_nat a)) by lia.
  revert H. generalize (Z.to_nat a) as n. intros n.
  revert l; induction n; intros l H; destruct l; simpl in *; try discriminate.
  - inversion H; subst. reflexivity.
  - rewrite (IHn l H). destruct l; [destruct n; discriminate|]. reflexivity.
Qed.

Lemma slice_nil {A} (l : list A) a b : b <= a -> slice l a b = [].
Proof. intros. unfold slice. replace (Z.to_nat (b - a)) with O by lia. reflexivity. Qed.

Lemma slice_Forall {A} (P : A -> Prop) l a b : Forall P l -> Forall P (slice l a b).
Proof.
  intros H. unfold slice. apply Forall_forall. intros x Hx.
  assert (In x l).
  { assert (In x (skipn (Z.to_nat a) l)).
    { rewrite <- (firstn_skipn (Z.to_nat (b - a)) (skipn (Z.to_nat a) l)). apply in_or_app. auto. }
    rewrite <- (firstn_skipn (Z.to_nat a) l). apply in_or_app. auto. }
  rewrite Forall_forall in H. auto.
Qed.

Lemma skipn_skipn' {A} (x y : nat) (l : list A) : skipn x (skipn y l) = skipn (x + y) l.
Proof.
  revert l; induction y; intros l; [rewrite Nat.add_0_r; reflexivity|].
  rewrite Nat.add_succ_r. destruct l; cbn; [apply skipn_nil|apply IHy].
Qed.
