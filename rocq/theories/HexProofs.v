(* Lemmas about the hexadecimal functions *)
From Verif Require Import Base HexModel HexSpec.
From Coq Require Import ZifyBool.
Ltac Zify.zify_post_hook ::= Z.div_mod_to_equations.

(* a buffer: the characters written so far, and the rest *)
Definition B (out : list Z) (rest : list (option Z)) : list (option Z) := map Some out ++ rest.

Lemma len_map {A C} (f : A -> C) l : len (map f l) = len l.
Proof. unfold len. rewrite map_length. reflexivity. Qed.

Lemma put out rest c p : p = len out -> 1 <= len rest ->
  wr (B out rest) p (Some c) = Ok (B (out ++ [c]) (skipn 1 rest)).
Proof.
  intros -> H. unfold B. rewrite wr_in by (rewrite len_app, len_map; pose proof (len_nonneg out); lia).
  f_equal. rewrite upd_app_r by (rewrite map_length; unfold len; lia).
  rewrite map_length. replace (Z.to_nat (len out) - length out)%nat with O by (unfold len; lia).
  destruct rest; [unfold len in H; simpl in H; lia|]. cbn [upd skipn]. rewrite map_app, <- app_assoc. reflexivity.
Qed.

Lemma len_skipn {A} n (l : list A) : Z.of_nat n <= len l -> len (skipn n l) = len l - Z.of_nat n.
Proof. unfold len. rewrite skipn_length. lia. Qed.

Lemma put2 out rest c e p : p = len out -> 2 <= len rest ->
  (do b <- wr (B out rest) p (Some c); wr b (p + 1) (Some e)) = Ok (B (out ++ [c; e]) (skipn 2 rest)).
Proof.
  intros -> H. rewrite put by (auto; lia). cbn [bind]. rewrite put.
  - rewrite <- app_assoc, skipn_skipn'. reflexivity.
  - rewrite len_app. reflexivity.
  - rewrite len_skipn by lia. lia.
Qed.

Lemma land15 b : Z.land b 15 = b mod 16.
Proof. change 15 with (Z.ones 4). rewrite Z.land_ones by lia. reflexivity. Qed.
Lemma nibble b : is_byte b -> Z.land (Z.shiftr b 4) 15 = b / 16 /\ 0 <= b / 16 < 16.
Proof.
  intros H. rewrite land15, Z.shiftr_div_pow2 by lia. change (2^4) with 16. unfold is_byte in H. split; lia.
Qed.

Lemma z16 (P : Z -> Prop) : P 0 -> P 1 -> P 2 -> P 3 -> P 4 -> P 5 -> P 6 -> P 7 -> P 8 -> P 9 -> P 10 -> P 11 ->
  P 12 -> P 13 -> P 14 -> P 15 -> forall v, 0 <= v < 16 -> P v.
Proof.
  intros. assert (v=0\/v=1\/v=2\/v=3\/v=4\/v=5\/v=6\/v=7\/v=8\/v=9\/v=10\/v=11\/v=12\/v=13\/v=14\/v=15) as K by lia.
  repeat (destruct K as [-> | K]; [assumption|]). subst. assumption.
Qed.

Lemma map_digit (up : bool) v : 0 <= v < 16 -> rd (if up then hex_upper else hex_lower) v = Ok (digit up v).
Proof. revert v. apply z16; destruct up; reflexivity. Qed.

Lemma lower_digit v : 0 <= v < 16 -> rd hex_lower v = Ok (digit false v).
Proof. apply (map_digit false). Qed.

Lemma bin2hex_loop_spec (up : bool) data e (HB : Forall is_byte data) : forall fuel i out rest,
  0 <= i <= e -> e <= len data -> e - i <= Z.of_nat fuel -> 2 * (e - i) <= len rest ->
  bin2hex_loop fuel (if up then hex_upper else hex_lower) data i e (B out rest) (len out) =
  Ok (B (out ++ flat_map (hex2 up) (slice data i e)) (skipn (Z.to_nat (2 * (e - i))) rest), len out + 2 * (e - i)).
Proof.
  induction fuel; intros i out rest Hi He Hf Hr; cbn [bin2hex_loop].
  - replace (i <? e) with false by lia. rewrite slice_nil by lia. cbn [flat_map]. rewrite app_nil_r.
    replace (2 * (e - i)) with 0 by lia. cbn [Z.to_nat skipn]. rewrite Z.add_0_r. reflexivity.
  - destruct (i <? e) eqn:E.
    + destruct (rd_in data i ltac:(lia)) as (b & Hb). rewrite Hb. cbn [bind].
      assert (is_byte b) as Bb.
      { apply rd_ok in Hb. rewrite Forall_forall in HB. apply HB. eapply nth_error_In. apply Hb. }
      destruct (nibble b Bb) as (-> & N). rewrite map_digit by auto. cbn [bind].
      rewrite land15. rewrite put by (auto; lia). cbn [bind].
      rewrite map_digit by (apply Z.mod_pos_bound; lia). cbn [bind].
      rewrite put by (try rewrite len_app; try rewrite len_skipn by lia; try reflexivity; lia). cbn [bind].
      rewrite <- app_assoc, skipn_skipn'. cbn [Nat.add app].
      replace (len out + 2) with (len (out ++ [digit up (b / 16); digit up (b mod 16)])) by (rewrite len_app; reflexivity).
      rewrite IHfuel by (try rewrite len_skipn by lia; lia).
      rewrite (slice_cons data i e b Hb) by lia. cbn [flat_map]. rewrite skipn_skipn', <- app_assoc, len_app.
      change (len [digit up (b / 16); digit up (b mod 16)]) with 2.
      replace (Z.to_nat (2 * (e - (i + 1))) + 2)%nat with (Z.to_nat (2 * (e - i))) by lia.
      replace (len out + 2 + 2 * (e - (i + 1))) with (len out + 2 * (e - i)) by lia. reflexivity.
    + rewrite slice_nil by lia. cbn [flat_map]. rewrite app_nil_r. replace (2 * (e - i)) with 0 by lia.
      cbn [Z.to_nat skipn]. rewrite Z.add_0_r. reflexivity.
Qed.

Lemma len_repeat {A} (a : A) n : len (repeat a n) = Z.of_nat n.
Proof. unfold len. rewrite repeat_length. reflexivity. Qed.

Lemma len_flat_hex2 up l : len (flat_map (hex2 up) l) = 2 * len l.
Proof. induction l; [reflexivity|]. cbn [flat_map]. rewrite len_app, IHl, len_cons. change (len (hex2 up a)) with 2. lia. Qed.

Lemma bin2hex_spec data n up : Forall is_byte data -> 0 <= n <= len data -> 2 * n + 1 < 2^64 ->
  bin2hex data n up = Ok (map Some (flat_map (hex2 up) (slice data 0 n) ++ [0])).
Proof.
  intros HB Hn Hm. unfold bin2hex, malloc. rewrite u64_id by (unfold in_u64; lia).
  change (repeat None (Z.to_nat (2 * n + 1))) with (B [] (repeat None (Z.to_nat (2 * n + 1)))).
  change 0 with (len (@nil Z)) at 2.
  rewrite bin2hex_loop_spec by (try rewrite len_repeat; auto; lia). cbn [bind app].
  rewrite put.
  - unfold B. replace (Z.to_nat (2 * (n - 0))) with (Z.to_nat (2 * n)) by lia. rewrite skipn_skipn'.
    rewrite skipn_all2 by (rewrite repeat_length; lia). rewrite app_nil_r. reflexivity.
  - rewrite len_flat_hex2, slice_len by lia. rewrite len_nil. reflexivity.
  - rewrite len_skipn; rewrite len_repeat; lia.
Qed.

(* ---------------- decoding ---------------- *)

Lemma z_digits (P : Z -> Prop) : (forall v, 0 <= v < 10 -> P (48 + v)) -> (forall v, 0 <= v < 6 -> P (65 + v)) ->
  (forall v, 0 <= v < 6 -> P (97 + v)) -> forall c, isxdigit c = true -> P c.
Proof.
  intros H1 H2 H3 c H. unfold isxdigit in H.
  assert ((48 <= c <= 57) \/ (65 <= c <= 70) \/ (97 <= c <= 102)) as [K|[K|K]] by lia.
  - replace c with (48 + (c - 48)) by lia. apply H1. lia.
  - replace c with (65 + (c - 65)) by lia. apply H2. lia.
  - replace c with (97 + (c - 97)) by lia. apply H3. lia.
Qed.

Lemma z10 (P : Z -> Prop) : P 0 -> P 1 -> P 2 -> P 3 -> P 4 -> P 5 -> P 6 -> P 7 -> P 8 -> P 9 -> forall v, 0 <= v < 10 -> P v.
Proof.
  intros. assert (v=0\/v=1\/v=2\/v=3\/v=4\/v=5\/v=6\/v=7\/v=8\/v=9) as K by lia.
  repeat (destruct K as [-> | K]; [assumption|]). subst. assumption.
Qed.
Lemma z6 (P : Z -> Prop) : P 0 -> P 1 -> P 2 -> P 3 -> P 4 -> P 5 -> forall v, 0 <= v < 6 -> P v.
Proof.
  intros. assert (v=0\/v=1\/v=2\/v=3\/v=4\/v=5) as K by lia.
  repeat (destruct K as [-> | K]; [assumption|]). subst. assumption.
Qed.

Lemma table_digit c : isxdigit c = true -> exists v, rd hex_table (s8 c - 48) = Ok v /\ hex_digit c v /\ 0 <= v < 16.
Proof.
  revert c. apply z_digits; [apply z10|apply z6|apply z6]; eexists; (split; [reflexivity|]); unfold hex_digit; lia.
Qed.

Lemma hex_digit_is c v : hex_digit c v -> isxdigit c = true /\ 0 <= v < 16.
Proof. unfold hex_digit, isxdigit. intros [K|[K|K]]; lia. Qed.

Lemma hex_digit_fun c v w : hex_digit c v -> hex_digit c w -> v = w.
Proof. unfold hex_digit. lia. Qed.

Lemma hex_of_fun s bs bs' : hex_of s bs -> hex_of s bs' -> bs = bs'.
Proof.
  intros H. revert bs'. induction H; intros bs' K; inversion K; subst; auto.
  f_equal; auto.
  rewrite (hex_digit_fun c1 v1 v0), (hex_digit_fun c2 v2 v3); auto.
Qed.

Lemma hex_of_len s bs : hex_of s bs -> len s = 2 * len bs.
Proof. induction 1; [reflexivity|]. rewrite !len_cons. lia. Qed.

Lemma hex2bin_loop_spec str n (Hn : n <= len str) (Ev : Z.even n = true) : forall fuel i out rest,
  0 <= i <= n -> Z.even i = true -> n - i <= 2 * Z.of_nat fuel -> n - i <= 2 * len rest ->
  (exists bs, hex_of (slice str i n) bs /\
     hex2bin_loop fuel str n (B out rest) i (len out) = Ok (true, B (out ++ bs) (skipn (length bs) rest))) \/
  ((forall bs, ~ hex_of (slice str i n) bs) /\
   exists bs, 2 * len bs < n - i /\
     hex2bin_loop fuel str n (B out rest) i (len out) = Ok (false, B (out ++ bs) (skipn (length bs) rest))).
Proof.
  induction fuel; intros i out rest Hi Ei Hf Hr; cbn [hex2bin_loop].
  - replace (i <? n) with false by lia. left. exists []. rewrite slice_nil by lia. split; [constructor|].
    rewrite app_nil_r. reflexivity.
  - destruct (i <? n) eqn:E.
    + assert (i + 2 <= n).
      { rewrite Zeven_mod in Ev, Ei. apply Zeq_bool_eq in Ev, Ei. lia. }
      destruct (rd_in str i ltac:(lia)) as (c1 & H1). destruct (rd_in str (i + 1) ltac:(lia)) as (c2 & H2).
      rewrite H1. cbn [bind]. rewrite H2. cbn [bind].
      assert (slice str i n = c1 :: c2 :: slice str (i + 2) n) as SS.
      { rewrite (slice_cons str i n c1 H1) by lia. rewrite (slice_cons str (i + 1) n c2 H2) by lia.
        replace (i + 1 + 1) with (i + 2) by lia. reflexivity. }
      destruct (isxdigit c1 && isxdigit c2) eqn:X.
      * apply andb_prop in X. destruct X as (X1 & X2).
        destruct (table_digit c1 X1) as (v1 & -> & D1 & V1). destruct (table_digit c2 X2) as (v2 & -> & D2 & V2). cbn [bind].
        assert (u8 (Z.shiftl v1 4 + v2) = 16 * v1 + v2) as U.
        { unfold u8. rewrite Z.shiftl_mul_pow2 by lia. change (2^4) with 16. change (2^8) with 256. rewrite Z.mod_small; lia. }
        rewrite U. rewrite put by (auto; lia). cbn [bind].
        replace (len out + 1) with (len (out ++ [16 * v1 + v2])) by (rewrite len_app; reflexivity).
        destruct (IHfuel (i + 2) (out ++ [16 * v1 + v2]) (skipn 1 rest)) as [(bs & K1 & K2)|(K1 & bs & K2 & K3)];
          [lia|rewrite Z.even_add, Ei; reflexivity|lia|rewrite len_skipn by lia; lia| |].
        -- left. exists (16 * v1 + v2 :: bs). split; [rewrite SS; constructor; auto|].
           rewrite K2. rewrite <- app_assoc, skipn_skipn'. cbn [app length]. replace (length bs + 1)%nat with (S (length bs)) by lia. reflexivity.
        -- right. split.
           { intros b' Hb'. rewrite SS in Hb'. inversion Hb'; subst. eapply K1; eauto. }
           exists (16 * v1 + v2 :: bs). split; [rewrite len_cons; lia|].
           rewrite K3. rewrite <- app_assoc, skipn_skipn'. cbn [app length]. replace (length bs + 1)%nat with (S (length bs)) by lia. reflexivity.
      * right. split.
        { intros b' Hb'. rewrite SS in Hb'. inversion Hb'; subst.
          match goal with A : hex_digit c1 _, C : hex_digit c2 _ |- _ => apply hex_digit_is in A, C end.
          destruct (isxdigit c1), (isxdigit c2); cbn in X; intuition discriminate. }
        exists []. split; [change (len (@nil Z)) with 0; lia|]. rewrite app_nil_r. reflexivity.
    + left. exists []. rewrite slice_nil by lia. split; [constructor|]. rewrite app_nil_r. reflexivity.
Qed.

Lemma slice_0 {A} (l : list A) n : slice l 0 n = firstn (Z.to_nat n) l.
Proof. unfold slice. cbn [Z.to_nat skipn]. rewrite Z.sub_0_r. reflexivity. Qed.

Lemma hex2bin_spec str n buf : 0 < n -> n <= len str -> Z.even n = true -> n <= 2 * len buf ->
  (exists bs, hex_of (firstn (Z.to_nat n) str) bs /\
     hex2bin (Some str) n (Some buf) = Ok (true, Some (map Some bs ++ skipn (Z.to_nat (n / 2)) buf))) \/
  ((forall bs, ~ hex_of (firstn (Z.to_nat n) str) bs) /\
   exists bs, 2 * len bs < n /\
     hex2bin (Some str) n (Some buf) = Ok (false, Some (map Some bs ++ skipn (length bs) buf))).
Proof.
  intros H0 Hn Ev Hb. unfold hex2bin. replace (n >? 0) with true by lia. rewrite Ev. cbn [andb].
  destruct (hex2bin_loop_spec str n Hn Ev (Z.to_nat n) 0 [] buf) as [(bs & K1 & K2)|(K1 & bs & K2 & K3)];
    [lia|reflexivity|lia|lia| |]; rewrite slice_0 in K1; change (B [] buf) with buf in *; change (len (@nil Z)) with 0 in *.
  - left. exists bs. split; auto. rewrite K2. cbn [bind app]. unfold B.
    replace (length bs) with (Z.to_nat (n / 2)); auto. apply hex_of_len in K1.
    unfold len in K1, Hn. rewrite firstn_length in K1. lia.
  - right. split; auto. exists bs. split; [lia|]. rewrite K3. reflexivity.
Qed.

Lemma hex2_hex_of up bs : Forall is_byte bs -> hex_of (flat_map (hex2 up) bs) bs.
Proof.
  induction 1 as [|b l Hb H IH]; [constructor|]. cbn [flat_map hex2 app].
  replace (hex_of (digit up (b / 16) :: digit up (b mod 16) :: flat_map (hex2 up) l) (b :: l))
    with (hex_of (digit up (b / 16) :: digit up (b mod 16) :: flat_map (hex2 up) l) (16 * (b / 16) + b mod 16 :: l)).
  2:{ rewrite <- Z.div_mod by lia. reflexivity. }
  unfold is_byte in Hb.
  constructor; auto; unfold hex_digit, digit.
  - destruct (b / 16 <? 10) eqn:E; destruct up; lia.
  - destruct (b mod 16 <? 10) eqn:E; destruct up; lia.
Qed.

Lemma strlen_spec s rest : Forall (fun c => c <> 0) s -> strlen_loop (s ++ 0 :: rest) = Ok (len s).
Proof.
  induction 1 as [|c l Hc H IH]; [reflexivity|]. cbn [app strlen_loop]. replace (c =? 0) with false by lia.
  rewrite IH. cbn [bind]. rewrite len_cons. reflexivity.
Qed.

Lemma digit_nz up v : 0 <= v < 16 -> digit up v <> 0.
Proof. unfold digit. destruct (v <? 10), up; lia. Qed.

Lemma hex2_nz up bs : Forall is_byte bs -> Forall (fun c => c <> 0) (flat_map (hex2 up) bs).
Proof.
  induction 1 as [|b l Hb H IH]; [constructor|]. unfold is_byte in Hb. cbn [flat_map hex2 app].
  constructor; [apply digit_nz; lia|]. constructor; [apply digit_nz; lia|]. auto.
Qed.

(* ---------------- dump ---------------- *)

Definition fields (data : list Z) (i n : nat) : list Z := flat_map (fun i => sep i ++ byte_field data i) (seq i n).

Lemma sep_case i : (i = 0%nat /\ sep i = []) \/ (i = 8%nat /\ sep i = [32; 32]) \/ (i <> 0%nat /\ i <> 8%nat /\ sep i = [32]).
Proof.
  destruct i as [|[|[|[|[|[|[|[|[|i]]]]]]]]]; auto; right; right; repeat split; try lia; reflexivity.
Qed.

Lemma nth_firstn_lt {A} (l : list A) n i : (i < n)%nat -> nth_error (firstn n l) i = nth_error l i.
Proof. revert n i. induction l; intros [|n] [|i] H; cbn; auto; try lia. apply IHl. lia. Qed.

Lemma hexdump_loop_spec data sz (HB : Forall is_byte data) (Hs : 0 <= sz) (Hd : Z.min sz 16 <= len data) : forall n i out rest,
  (i + n = 16)%nat -> len (fields (firstn (Z.to_nat sz) data) i n) <= len rest ->
  let w := fields (firstn (Z.to_nat sz) data) i n in
  hexdump_loop n data sz (Z.of_nat i) (B out rest) (len out) = Ok (B (out ++ w) (skipn (length w) rest), len (out ++ w)).
Proof.
  induction n; intros i out rest Hi Hr; cbn zeta; cbn [hexdump_loop].
  - unfold fields. cbn [seq flat_map length skipn]. rewrite app_nil_r. reflexivity.
  - unfold fields in Hr |- *. cbn [seq flat_map] in Hr |- *. fold (fields (firstn (Z.to_nat sz) data) (S i) n) in Hr |- *.
    rewrite !len_app in Hr. pose proof (len_nonneg (fields (firstn (Z.to_nat sz) data) (S i) n)).
    pose proof (len_nonneg (sep i)). pose proof (len_nonneg (byte_field (firstn (Z.to_nat sz) data) i)).
    (* the separator *)
    match goal with |- bind ?m _ = _ => assert (m = Ok (B (out ++ sep i) (skipn (length (sep i)) rest), len (out ++ sep i))) as -> end.
    { destruct (sep_case i) as [(-> & E)|[(-> & E)|(N0 & N8 & E)]]; rewrite E in *.
      - rewrite app_nil_r. reflexivity.
      - change (Z.of_nat 8 >? 0) with true. change (Z.of_nat 8 =? 8) with true. cbv iota.
        change (len [32;32]) with 2 in *. rewrite put by (auto; lia). cbn [bind].
        rewrite put by (try rewrite len_app; try rewrite len_skipn by lia; try reflexivity; lia). cbn [bind].
        rewrite <- app_assoc, skipn_skipn', len_app. reflexivity.
      - replace (Z.of_nat i >? 0) with true by lia. replace (Z.of_nat i =? 8) with false by lia.
        change (len [32]) with 1 in *. rewrite put by (auto; lia). cbn [bind]. rewrite len_app. reflexivity. }
    cbn [bind].
    set (out1 := out ++ sep i). set (rest1 := skipn (length (sep i)) rest).
    assert (len rest1 = len rest - len (sep i)) as L1 by (unfold rest1; apply len_skipn; unfold len in *; lia).
    (* the field *)
    match goal with |- bind ?m _ = _ => assert (m = Ok (B (out1 ++ byte_field (firstn (Z.to_nat sz) data) i) (skipn 2 rest1),
       len (out1 ++ byte_field (firstn (Z.to_nat sz) data) i)) /\ length (byte_field (firstn (Z.to_nat sz) data) i) = 2%nat) as (-> & LF) end.
    { unfold byte_field in *. destruct (Z.of_nat i <? sz) eqn:E.
      - rewrite nth_firstn_lt in * by lia.
        destruct (rd_in data (Z.of_nat i) ltac:(lia)) as (b & Hb). rewrite Hb. cbn [bind].
        apply rd_ok in Hb. rewrite Nat2Z.id in Hb. destruct Hb as (_ & Hb). rewrite Hb in *.
        assert (is_byte b) as Bb by (rewrite Forall_forall in HB; apply HB; eapply nth_error_In; eauto).
        destruct (nibble b Bb) as (-> & N). change (len (hex2 false b)) with 2 in *.
        rewrite lower_digit by auto. cbn [bind]. rewrite land15. rewrite put by (auto; lia). cbn [bind].
        rewrite lower_digit by (apply Z.mod_pos_bound; lia). cbn [bind].
        rewrite put by (try rewrite len_app; try rewrite len_skipn by lia; try reflexivity; lia). cbn [bind].
        rewrite <- app_assoc, skipn_skipn'. cbn [app Nat.add]. split; [|reflexivity]. rewrite (len_app out1 (hex2 _ _)). reflexivity.
      - assert (nth_error (firstn (Z.to_nat sz) data) i = None) as N.
        { apply nth_error_None. rewrite firstn_length. lia. }
        rewrite N in *. change (len [space; space]) with 2 in *.
        rewrite put by (auto; lia). cbn [bind].
        rewrite put by (try rewrite len_app; try rewrite len_skipn by lia; try reflexivity; lia). cbn [bind].
        rewrite <- app_assoc, skipn_skipn'. cbn [app Nat.add]. split; [|reflexivity]. rewrite (len_app out1 [_;_]). reflexivity. }
    cbn [bind].
    assert (len (byte_field (firstn (Z.to_nat sz) data) i) = 2) as LF2 by (unfold len; lia).
    replace (Z.of_nat i + 1) with (Z.of_nat (S i)) by lia.
    rewrite IHn by (try rewrite len_skipn by lia; lia).
    unfold out1, rest1. rewrite !app_length, LF, !skipn_skipn', <- !app_assoc.
    f_equal. f_equal. f_equal. f_equal. lia.
Qed.

(* the text, starting with character i *)
Fixpoint text (isp : Z -> bool) (data : list Z) (i n : nat) : list Z :=
  match n with
  | O => []
  | S m => (if (i =? 8)%nat then [32] else []) ++ (match nth_error data i with Some b => [if isp (s8 b) then b else 46] | None => [] end) ++ text isp data (S i) m
  end.

Lemma hexdump_text_spec d isp data (HB : Forall is_byte data) : forall n i out rest,
  Z.of_nat (i + n) <= len data -> len (text isp data i n) <= len rest ->
  (d = Wrap \/ Forall (fun b => b < 128 \/ b = 255) (firstn (i + n) data)) ->
  let w := text isp data i n in
  hexdump_text d isp n data (Z.of_nat i) (B out rest) (len out) = Ok (B (out ++ w) (skipn (length w) rest), len (out ++ w)).
Proof.
  induction n; intros i out rest Hi Hr Hd; cbn zeta; cbn [hexdump_text text] in *.
  - cbn [length skipn]. rewrite app_nil_r. reflexivity.
  - destruct (rd_in data (Z.of_nat i) ltac:(lia)) as (b & Hb). rewrite Hb. cbn [bind].
    apply rd_ok in Hb. rewrite Nat2Z.id in Hb. destruct Hb as (_ & Hb). rewrite Hb in *.
    assert (is_byte b) as Bb by (rewrite Forall_forall in HB; apply HB; eapply nth_error_In; eauto).
    replace (Z.of_nat i =? 8) with (i =? 8)%nat by (destruct (i =? 8)%nat eqn:K; lia).
    set (sp := if (i =? 8)%nat then [32] else []) in *. rewrite !len_app in Hr.
    pose proof (len_nonneg (text isp data (S i) n)). pose proof (len_nonneg sp).
    set (c := if isp (s8 b) then b else 46) in *. change (len [c]) with 1 in Hr.
    match goal with |- bind ?m _ = _ => assert (m = Ok (B (out ++ sp) (skipn (length sp) rest), len (out ++ sp))) as -> end.
    { unfold sp in *. destruct (i =? 8)%nat.
      - change (len [32]) with 1 in *. rewrite put by (auto; lia). cbn [bind]. rewrite len_app. reflexivity.
      - rewrite app_nil_r. reflexivity. }
    cbn [bind].
    assert (libc_isprint d isp (s8 b) = Ok (isp (s8 b))) as ->.
    { unfold libc_isprint. destruct d; auto. destruct Hd as [?|Hd]; [discriminate|].
      assert (b < 128 \/ b = 255) as K.
      { rewrite Forall_forall in Hd. apply Hd. apply (nth_error_In _ i). rewrite nth_firstn_lt by lia. exact Hb. }
      unfold is_byte in Bb. unfold s8. destruct (b <? 128) eqn:E.
      - replace (b <? -1) with false by lia. reflexivity.
      - replace (b - 256 <? -1) with false by lia. reflexivity. }
    cbn [bind]. fold c.
    assert (len (skipn (length sp) rest) = len rest - len sp) as L by (apply len_skipn; change (Z.of_nat (length sp)) with (len sp); lia).
    rewrite put by (auto; lia). cbn [bind].
    replace (len (out ++ sp) + 1) with (len ((out ++ sp) ++ [c])) by (rewrite (len_app (out ++ sp)); reflexivity).
    replace (Z.of_nat i + 1) with (Z.of_nat (S i)) by lia.
    rewrite IHn.
    + rewrite !app_length, !skipn_skipn', <- !app_assoc. cbn [length app].
      replace (length (text isp data (S i) n) + 1 + length sp)%nat with (length sp + S (length (text isp data (S i) n)))%nat by lia. reflexivity.
    + lia.
    + rewrite len_skipn by lia. lia.
    + replace (S i + n)%nat with (i + S n)%nat by lia. auto.
Qed.

Lemma map_firstn_nth {A C} (f : A -> C) (l : list A) : forall n i, (i + n <= length l)%nat ->
  map f (firstn n (skipn i l)) = flat_map (fun j => match nth_error l j with Some b => [f b] | None => [] end) (seq i n).
Proof.
  induction n; intros i H; [reflexivity|]. cbn [seq flat_map].
  destruct (nth_error l i) eqn:E.
  - assert (skipn i l = a :: skipn (S i) l) as ->.
    { clear - E. revert i E. induction l; intros [|i] E; cbn in *; try discriminate; [congruence|]. apply IHl in E. auto. }
    cbn [firstn map app]. rewrite IHn by lia. reflexivity.
  - apply nth_error_None in E. lia.
Qed.

Lemma text_nosp isp data : forall n i, (8 < i \/ i + n <= 8)%nat ->
  text isp data i n = flat_map (fun j => match nth_error data j with Some b => [if isp (s8 b) then b else 46] | None => [] end) (seq i n).
Proof.
  induction n; intros i H; [reflexivity|]. cbn [text seq flat_map]. replace (i =? 8)%nat with false by lia. cbn [app].
  rewrite IHn by lia. reflexivity.
Qed.

Lemma text_app isp data : forall n m i, text isp data i (n + m) = text isp data i n ++ text isp data (i + n) m.
Proof.
  induction n; intros m i; cbn [Nat.add text app]; [rewrite Nat.add_0_r; reflexivity|].
  rewrite IHn, !app_assoc. replace (i + S n)%nat with (S i + n)%nat by lia. reflexivity.
Qed.

Lemma text_part_eq isp data n : n = length data -> (n <= 16)%nat ->
  text isp data 0 n = text_part (fun b => isp (s8 b)) data.
Proof.
  intros -> H. unfold text_part. rewrite firstn_all2 by lia. rewrite map_length.
  destruct (8 <? length data)%nat eqn:E.
  - replace (length data) with (8 + (length data - 8))%nat at 1 by lia. rewrite text_app. cbn [Nat.add].
    destruct (length data - 8)%nat as [|k] eqn:K; [lia|].
    rewrite text_nosp by lia. rewrite <- map_firstn_nth with (f := fun b => if isp (s8 b) then b else 46) by lia.
    rewrite firstn_map. change (skipn 0 data) with data. f_equal. cbn [text]. rewrite Nat.eqb_refl. f_equal.
    rewrite text_nosp by lia.
    transitivity (flat_map (fun j => match nth_error data j with Some b => [if isp (s8 b) then b else 46] | None => [] end) (seq 8 (S k))); [reflexivity|].
    rewrite <- map_firstn_nth with (f := fun b => if isp (s8 b) then b else 46) by lia.
    rewrite skipn_map. f_equal. apply firstn_all2. rewrite skipn_length. lia.
  - rewrite text_nosp by lia. rewrite <- map_firstn_nth with (f := fun b => if isp (s8 b) then b else 46) by lia.
    cbn [skipn]. rewrite firstn_all. reflexivity.
Qed.

Lemma hex_part_len data : len (hex_part data) = 48.
Proof.
  assert (forall i, len (byte_field data i) = 2) as L.
  { intros i. unfold byte_field. destruct (nth_error data i); reflexivity. }
  unfold hex_part. cbn [seq flat_map]. rewrite !len_app, !L. reflexivity.
Qed.

Lemma text_part_len p data : len (text_part p data) <= 17.
Proof.
  unfold text_part. destruct (_ <? _)%nat eqn:E.
  - rewrite !len_app. unfold len. rewrite firstn_length, skipn_length, map_length, firstn_length. cbn [length]. lia.
  - unfold len. rewrite map_length, firstn_length. lia.
Qed.

Lemma text_firstn isp data : forall n i k, (i + n <= k)%nat -> text isp (firstn k data) i n = text isp data i n.
Proof.
  induction n; intros i k H; [reflexivity|]. cbn [text]. rewrite nth_firstn_lt by lia. rewrite IHn by lia. reflexivity.
Qed.

Lemma nth_error_firstn' {A} (l : list A) k : forall n i, (i < n)%nat -> nth_error (firstn (Nat.min k n) l) i = nth_error (firstn k l) i.
Proof.
  intros n i H. destruct (Nat.le_gt_cases k n).
  - rewrite Nat.min_l by lia. reflexivity.
  - rewrite Nat.min_r by lia. rewrite !nth_firstn_lt by lia. reflexivity.
Qed.

Lemma hexdump_spec d isp buf data sz : Forall is_byte data -> 0 <= sz -> Z.min sz 16 <= len data ->
  70 <= len buf -> (d = Wrap \/ Forall (fun b => b < 128 \/ b = 255) (firstn (Z.to_nat (Z.min sz 16)) data)) ->
  let line := dump_line (fun b => isp (s8 b)) (firstn (Z.to_nat (Z.min sz 16)) data) in
  hexdump d isp buf data sz = Ok (Z.min sz 16, map Some (line ++ [0]) ++ skipn (length line + 1) buf) /\ len line <= 69.
Proof.
  intros HB Hs Hd Hbuf Hp line.
  assert (fields (firstn (Z.to_nat sz) data) 0 16 = hex_part (firstn (Z.to_nat (Z.min sz 16)) data)) as HF.
  { unfold fields, hex_part. replace (Z.to_nat (Z.min sz 16)) with (Nat.min (Z.to_nat sz) 16) by lia.
    assert (forall l, Forall (fun i => i < 16)%nat l -> flat_map (fun i => sep i ++ byte_field (firstn (Z.to_nat sz) data) i) l =
      flat_map (fun i => sep i ++ byte_field (firstn (Nat.min (Z.to_nat sz) 16) data) i) l) as G.
    { induction 1 as [|x l Hx Hl IH]; [reflexivity|]. cbn [flat_map]. rewrite IH. unfold byte_field.
      rewrite (nth_error_firstn' data (Z.to_nat sz) 16 x) by lia. reflexivity. }
    apply G. apply Forall_forall. intros x Hx. apply in_seq in Hx. lia. }
  set (dat := firstn (Z.to_nat (Z.min sz 16)) data) in *.
  assert (Z.of_nat (length dat) = Z.min sz 16) as LD by (unfold dat, len in *; rewrite firstn_length; lia).
  assert (text isp data 0 (Z.to_nat (Z.min sz 16)) = text_part (fun b => isp (s8 b)) dat) as HT.
  { rewrite <- (text_firstn isp data _ 0 (Z.to_nat (Z.min sz 16))) by lia. apply text_part_eq; unfold dat in *; lia. }
  pose proof (hex_part_len dat) as LH. pose proof (text_part_len (fun b => isp (s8 b)) dat) as LT.
  assert (len line <= 69) as LL by (unfold line, dump_line; rewrite !len_app, LH; change (len [space;space;space;space]) with 4; lia).
  split; auto. unfold hexdump. change buf with (B [] buf) at 1. change 0 with (Z.of_nat 0) at 1. change 0 with (len (@nil Z)) at 1.
  rewrite hexdump_loop_spec by (try rewrite HF; try rewrite LH; auto; lia). rewrite HF. cbn [bind app].
  set (H1 := hex_part dat) in *. set (buf1 := skipn (length H1) buf).
  assert (len buf1 = len buf - 48) as L1 by (unfold buf1; rewrite len_skipn by (unfold len in LH; lia); unfold len in *; lia).
  rewrite put by (auto; lia). cbn [bind].
  rewrite put by (rewrite ?len_app; try rewrite len_skipn by lia; try reflexivity; lia). cbn [bind].
  rewrite <- app_assoc, skipn_skipn'. cbn [Nat.add app].
  rewrite put by (rewrite ?len_app; try rewrite len_skipn by lia; try reflexivity; lia). cbn [bind].
  rewrite <- app_assoc, skipn_skipn'. cbn [Nat.add app].
  rewrite put by (rewrite ?len_app; try rewrite len_skipn by lia; try reflexivity; lia). cbn [bind].
  rewrite <- app_assoc, skipn_skipn'. cbn [Nat.add app].
  set (H2 := H1 ++ [32; 32; 32; 32]).
  replace (len H1 + 4) with (len H2) by (unfold H2; rewrite len_app; reflexivity).
  change 0 with (Z.of_nat 0) at 1.
  rewrite hexdump_text_spec; auto.
  2:{ unfold dat in LD. rewrite firstn_length in LD. unfold len. lia. }
  2:{ rewrite HT, len_skipn by lia. lia. }
  rewrite HT. cbn [bind].
  rewrite put; [|reflexivity|].
  2:{ rewrite skipn_skipn'. rewrite len_skipn by (unfold len in *; lia). unfold len in *; lia. }
  cbn [bind]. unfold B, buf1. rewrite !skipn_skipn'. f_equal. f_equal.
  assert (H2 ++ text_part (fun b => isp (s8 b)) dat = line) as -> by (unfold H2, line, dump_line; rewrite <- app_assoc; reflexivity).
  f_equal. f_equal. unfold line, dump_line. fold H1. rewrite !app_length. cbn [length]. lia.
Qed.
