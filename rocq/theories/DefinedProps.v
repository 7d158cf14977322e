(* C28 and C31-C34 once more: where ISO C defines what the functions do, their results are right, without any condition; and where exactly
   it does not *)
From Verif Require Import Base HexModel DataModel DataSpec DataProofs DataProps HexModel HexSpec HexProps.
From Coq Require Import ZifyBool.

Lemma memcmp_more d a b n k : memcmp d a b n = Ok k -> memcmp Wrap a b n = Ok k.
Proof. destruct d; auto. unfold memcmp. destruct a as [x|], b as [y|]; auto; discriminate. Qed.

Lemma memcmp_more_bool d a b n (r : bool) : (do c <- memcmp d a b n; Ok (c =? 0)) = Ok r -> (do c <- memcmp Wrap a b n; Ok (c =? 0)) = Ok r.
Proof. destruct (memcmp d a b n) as [k|] eqn:E; cbn [bind]; [|discriminate]. rewrite (memcmp_more d a b n k E). auto. Qed.

Lemma decided r P b : decides r P -> r = Ok b -> (b = true <-> P).
Proof. intros (c & E & H) E2. congruence. Qed.

(* ------------------------------------------------------------------ C31 *)
Theorem C31_defined : forall d p q a b x y c e r,
  p = Some (a, x) -> q = Some (b, y) -> holds x c -> holds y e -> coherent p q ->
  (data_equal d p q = Ok r -> (r = true <-> c = e)) /\
  (data_has_prefix d p q = Ok r -> (r = true <-> prefix_of e c)) /\
  (data_has_suffix d p q = Ok r -> (r = true <-> suffix_of e c)).
Proof.
  intros d p q a b x y c e r Ep Eq Hx Hy Co.
  destruct (C31_data_compare_partial Wrap p q a b x y c e Ep Eq Hx Hy Co (or_introl eq_refl)) as (D1 & D2 & D3). subst p q.
  split; [|split]; intros E; [apply (decided _ _ _ D1)|apply (decided _ _ _ D2)|apply (decided _ _ _ D3)]; clear D1 D2 D3.
  - unfold data_equal in *. destruct (a =? b); auto. destruct (size x =? size y); auto. eapply memcmp_more_bool; eauto.
  - unfold data_has_prefix in *. destruct (size y <=? size x); auto. eapply memcmp_more_bool; eauto.
  - unfold data_has_suffix in *. destruct (size y <=? size x); auto. eapply memcmp_more_bool; eauto.
Qed.
Print Assumptions C31_defined.

Definition null (x : gdata) : Prop := bytes x = None.

Lemma memcmp_undefined x y c e (n off : Z) : holds x c -> holds y e -> 0 <= off -> n = len e -> off + n <= len c ->
  ((exists f, (do k <- memcmp Strict (advance (bytes x) off) (bytes y) n; Ok (k =? 0)) = Fail f) <-> null x \/ null y).
Proof.
  intros Hx Hy H0 -> H1. unfold null. destruct (bytes x) as [u|] eqn:Ex, (bytes y) as [v|] eqn:Ey; cbn [advance memcmp bind]; [|split; [auto|eauto]..].
  - split; [|intros [K|K]; discriminate]. intros (f & K).
    destruct (cmp_at Strict x c y e off Hx Hy) as (k & E & _); try lia.
    + right. unfold no_null. rewrite Ex, Ey. split; discriminate.
    + rewrite Ex, Ey in E. cbn [advance] in E. unfold memcmp in E. rewrite E in K. discriminate.
Qed.

Theorem C31_undefined : forall a b x y c e, holds x c -> holds y e ->
  let p := Some (a, x) in let q := Some (b, y) in
  ((exists f, data_equal Strict p q = Fail f) <-> a <> b /\ len c = len e /\ (null x \/ null y)) /\
  ((exists f, data_has_prefix Strict p q = Fail f) <-> len e <= len c /\ (null x \/ null y)) /\
  ((exists f, data_has_suffix Strict p q = Fail f) <-> len e <= len c /\ (null x \/ null y)).
Proof.
  intros a b x y c e Hx Hy p q. pose proof Hx as (_ & Sx & _). pose proof Hy as (_ & Sy & _). unfold p, q, data_equal, data_has_prefix, data_has_suffix. rewrite Sx, Sy.
  pose proof (len_nonneg c). pose proof (len_nonneg e).
  assert (advance (bytes x) 0 = bytes x) as A0 by (destruct (bytes x); reflexivity).
  split; [|split].
  - destruct (a =? b) eqn:E; [split; [intros (f & K); discriminate|lia]|]. destruct (len c =? len e) eqn:E2; [|split; [intros (f & K); discriminate|lia]].
    pose proof (memcmp_undefined x y c e (len c) 0 Hx Hy ltac:(lia) ltac:(lia) ltac:(lia)) as M. rewrite A0 in M. rewrite M. split; [intros K; repeat split; auto; lia|tauto].
  - destruct (len e <=? len c) eqn:E2; [|split; [intros (f & K); discriminate|lia]].
    pose proof (memcmp_undefined x y c e (len e) 0 Hx Hy ltac:(lia) ltac:(lia) ltac:(lia)) as M. rewrite A0 in M. rewrite M. split; [intros K; split; auto; lia|tauto].
  - destruct (len e <=? len c) eqn:E2; [|split; [intros (f & K); discriminate|lia]].
    rewrite (memcmp_undefined x y c e (len e) (len c - len e) Hx Hy) by lia. split; [intros K; split; auto; lia|tauto].
Qed.
Print Assumptions C31_undefined.

(* two empty blocks, one of them without memory, and an empty block at the same address as itself *)
Example C31_example_defined : data_equal Strict (Some (nul 4)) (Some (nul 4)) = Ok true /\ data_equal Strict (Some (nul 4)) (Some (blk 1 [5])) = Ok false /\
  data_has_prefix Strict (Some (nul 4)) (Some (blk 1 [5])) = Ok false /\ data_has_prefix Strict (Some (blk 1 [5])) (Some (nul 4)) = Fail NullDeref /\ null (snd (nul 4)).
Proof. vm_compute. auto. Qed.

(* ------------------------------------------------------------------ C32 *)
Lemma copy_in_more d buf p s n b : copy_in d buf p s n = Ok b -> copy_in Wrap buf p s n = Ok b.
Proof. destruct d; auto. unfold copy_in. destruct s; auto. discriminate. Qed.

Lemma concat_copy_more d : forall args buf p b, concat_copy d args buf p = Ok b -> concat_copy Wrap args buf p = Ok b.
Proof.
  induction args as [|(a, x) t IH]; intros buf p b E; cbn [concat_copy] in *; auto. destruct (copy_in d buf p (bytes x) (size x)) as [b1|] eqn:E1; cbn [bind] in E; [|discriminate].
  rewrite (copy_in_more d _ _ _ _ _ E1). cbn [bind]. apply IH. exact E.
Qed.

Theorem C32_defined : forall d a x args c cs r,
  holds x c -> Forall2 (fun p c => holds (snd p) c) args cs -> len (concat (c :: cs)) < 2^64 -> len args + 1 < 2^32 ->
  bytes_concat d (Some (a, x)) args = Ok r ->
    match r with
    | NewBytes out => out = map Some (concat (c :: cs)) /\ 2 <= len (nonempty (c :: cs))
    | RefBytes b => (exists y e, In (b, y) ((a, x) :: args) /\ holds y e /\ e = concat (c :: cs)) /\ len (nonempty (c :: cs)) <= 1
    | NullBytes => False
    end.
Proof.
  intros d a x args c cs r Hx F L N E. destruct (C32_bytes_concat_partial Wrap a x args c cs Hx F (or_introl eq_refl) L N) as (r' & E' & P).
  assert (r' = r) as <-; [|exact P].
  assert (bytes_concat Wrap (Some (a, x)) args = Ok r) as E2; [|congruence]. clear - E.
  unfold bytes_concat in *. destruct (if size x =? 0 then _ else _) as ((total, count), ne). destruct (count =? 0); auto. destruct (count =? 1); auto.
  destruct (copy_in d _ 0 (bytes x) (size x)) as [b1|] eqn:E1; cbn [bind] in E; [|discriminate]. rewrite (copy_in_more d _ _ _ _ _ E1). cbn [bind].
  destruct (concat_copy d args b1 (size x)) as [b2|] eqn:E2; cbn [bind] in E; [|discriminate]. rewrite (concat_copy_more d _ _ _ _ E2). exact E.
Qed.
Print Assumptions C32_defined.

(* undefined exactly if something is copied, and some GBytes has no memory *)
Lemma concat_copy_null : forall args buf p, Exists (fun a => null (snd a)) args -> exists f, concat_copy Strict args buf p = Fail f.
Proof.
  induction args as [|(a, x) t IH]; intros buf p H; [inversion H|]. cbn [concat_copy]. unfold null in *. destruct (bytes x) as [l|] eqn:B.
  - inversion H; subst; cbn [snd] in *; [congruence|]. destruct (copy_in Strict buf p (Some l) (size x)); cbn [bind]; eauto.
  - cbn. eauto.
Qed.

Theorem C32_undefined : forall a x args c cs,
  holds x c -> Forall2 (fun p c => holds (snd p) c) args cs -> len (concat (c :: cs)) < 2^64 -> len args + 1 < 2^32 ->
  ((exists f, bytes_concat Strict (Some (a, x)) args = Fail f) <->
   2 <= len (nonempty (c :: cs)) /\ (null x \/ Exists (fun p => null (snd p)) args)).
Proof.
  intros a x args c cs Hx F L N.
  assert (no_null x /\ Forall (fun p => no_null (snd p)) args \/ (null x \/ Exists (fun p => null (snd p)) args)) as [NN|NU].
  { assert (forall y, no_null y \/ null y) as D by (intros y; unfold no_null, null; destruct (bytes y); [left; discriminate|auto]).
    destruct (D x) as [Dx|]; [|auto]. destruct (Exists_dec (fun p : Z * gdata => null (snd p)) args) as [E|E]; [|auto|].
    - intros (z, y). unfold null. cbn. destruct (bytes y); [right; discriminate|left; reflexivity].
    - left. split; auto. apply Forall_forall. intros p Hp. destruct (D (snd p)) as [|K]; auto. exfalso. apply E. apply Exists_exists. eauto. }
  - destruct (C32_bytes_concat_partial Strict a x args c cs Hx F (or_intror NN) L N) as (r & E & _). rewrite E. split; [intros (f & K); discriminate|].
    intros (_ & [K|K]); exfalso.
    + destruct NN as (NN & _). unfold no_null, null in *. rewrite K in NN. congruence.
    + destruct NN as (_ & NN). apply Exists_exists in K. destruct K as (p & Hp & K). rewrite Forall_forall in NN. specialize (NN p Hp). unfold no_null, null in *. rewrite K in NN. congruence.
  - destruct (C32_bytes_concat_partial Wrap a x args c cs Hx F (or_introl eq_refl) L N) as (r & E & P). split.
    + intros (f & K). split; auto. unfold bytes_concat in K, E. destruct (if size x =? 0 then _ else _) as ((total, count), ne). 
      destruct (count =? 0); [discriminate|]. destruct (count =? 1); [destruct ne; discriminate|].
      destruct (copy_in Wrap _ 0 (bytes x) (size x)); cbn [bind] in E; [|discriminate]. destruct (concat_copy Wrap args _ _); cbn [bind] in E; [|discriminate].
      injection E as <-. apply P.
    + intros (T & _). unfold bytes_concat in *. destruct (if size x =? 0 then _ else _) as ((total, count), ne).
      destruct (count =? 0); [injection E as <-; lia|]. destruct (count =? 1); [destruct ne; [injection E as <-; lia|discriminate]|].
      unfold null in NU. destruct (bytes x) as [l|]; [|cbn; eauto]. destruct NU as [K|NU]; [discriminate|].
      destruct (copy_in Strict _ 0 (Some l) (size x)) as [b1|]; cbn [bind]; [|eauto]. destruct (concat_copy_null args b1 (size x) NU) as (f & Ef). rewrite Ef. cbn. eauto.
Qed.
Print Assumptions C32_undefined.

Example C32_example_defined : bytes_concat Strict (Some (nul 1)) [nul 2; blk 3 [7]] = Ok (RefBytes 3) /\
  bytes_concat Strict (Some (blk 1 [1])) [blk 2 []; blk 3 [7]] = Ok (NewBytes [Some 1; Some 7]).
Proof. vm_compute. auto. Qed.

(* ------------------------------------------------------------------ C33 *)
Lemma load_more d mc a l i w : load d mc a l i = Ok w -> load Wrap mc a l i = Ok w.
Proof. destruct d; auto. unfold load. destruct (_ =? 0); auto. discriminate. Qed.

Lemma xor_words_more d mc a1 l1 a2 l2 n : forall fuel i out r, xor_words fuel d mc a1 l1 a2 l2 n i out = Ok r -> xor_words fuel Wrap mc a1 l1 a2 l2 n i out = Ok r.
Proof.
  induction fuel as [|f IH]; intros i out r E; cbn [xor_words] in *; [exact E|]. destruct (i + word_size mc <=? n); auto.
  destruct (load d mc a1 l1 i) as [u|] eqn:E1; cbn [bind] in E; [|discriminate]. rewrite (load_more d _ _ _ _ _ E1). cbn [bind].
  destruct (load d mc a2 l2 i) as [v|] eqn:E2; cbn [bind] in E; [|discriminate]. rewrite (load_more d _ _ _ _ _ E2). cbn [bind].
  destruct (save mc out i (Z.lxor u v)) as [out'|]; cbn [bind] in *; [|discriminate]. apply IH. exact E.
Qed.

Theorem C33_defined : forall d mc a1 a2 a b x y c e r,
  0 < word_size mc -> holds x c -> holds y e -> c <> [] -> e <> [] ->
  bytes_xor d mc a1 a2 (Some (a, x)) (Some (b, y)) = Ok r -> r = NewBytes (map Some (xor_spec c e)).
Proof.
  intros d mc a1 a2 a b x y c e r W Hx Hy Hc He E. pose proof (C33_bytes_xor_partial Wrap mc a1 a2 a b x y c e W Hx Hy (or_introl eq_refl) Hc He) as E'.
  assert (bytes_xor Wrap mc a1 a2 (Some (a, x)) (Some (b, y)) = Ok r) as E2; [|congruence]. clear - E. unfold bytes_xor in *.
  destruct (Z.min (size x) (size y) =? 0); auto.
  destruct (xor_words _ d mc _ _ _ _ _ _ _) as [(i, out)|] eqn:E1; cbn [bind] in E; [|discriminate]. rewrite (xor_words_more _ _ _ _ _ _ _ _ _ _ _ E1). exact E.
Qed.
Print Assumptions C33_defined.

(* undefined exactly if a whole word fits and one of the blocks is not aligned *)
Theorem C33_undefined : forall mc a1 a2 a b x y c e,
  0 < word_size mc -> holds x c -> holds y e -> c <> [] -> e <> [] ->
  ((exists f, bytes_xor Strict mc a1 a2 (Some (a, x)) (Some (b, y)) = Fail f) <->
   word_size mc <= Z.min (len c) (len e) /\ ~ (a1 mod word_size mc = 0 /\ a2 mod word_size mc = 0)).
Proof.
  intros mc a1 a2 a b x y c e W Hx Hy Hc He. pose proof Hx as (_ & Sx & _). pose proof Hy as (_ & Sy & _).
  assert (0 < len c) by (destruct c; [congruence|rewrite len_cons; pose proof (len_nonneg c); lia]).
  assert (0 < len e) by (destruct e; [congruence|rewrite len_cons; pose proof (len_nonneg e); lia]).
  destruct (Z_le_dec (word_size mc) (Z.min (len c) (len e))) as [Fit|Fit].
  - destruct (Z.eq_dec (a1 mod word_size mc) 0) as [A1|A1]; [destruct (Z.eq_dec (a2 mod word_size mc) 0) as [A2|A2]|].
    + rewrite (C33_bytes_xor_partial Strict mc a1 a2 a b x y c e W Hx Hy (or_intror (conj A1 A2)) Hc He). split; [intros (f & K); discriminate|tauto].
    + split; [tauto|]. intros _. unfold bytes_xor. rewrite Sx, Sy. replace (Z.min (len c) (len e) =? 0) with false by lia.
      assert (exists m, Z.to_nat (Z.min (len c) (len e)) = S m) as (m & ->) by (exists (Nat.pred (Z.to_nat (Z.min (len c) (len e)))); lia).
      cbn [xor_words]. replace (0 + word_size mc <=? Z.min (len c) (len e)) with true by lia. 
      destruct (load Strict mc a1 _ 0); cbn [bind]; [|eauto]. unfold load at 1. rewrite Z.add_0_r. replace (a2 mod word_size mc =? 0) with false by lia. cbn [bind]. eauto.
    + split; [tauto|]. intros _. unfold bytes_xor. rewrite Sx, Sy. replace (Z.min (len c) (len e) =? 0) with false by lia.
      assert (exists m, Z.to_nat (Z.min (len c) (len e)) = S m) as (m & ->) by (exists (Nat.pred (Z.to_nat (Z.min (len c) (len e)))); lia).
      cbn [xor_words]. replace (0 + word_size mc <=? Z.min (len c) (len e)) with true by lia.
      unfold load at 1. rewrite Z.add_0_r. replace (a1 mod word_size mc =? 0) with false by lia. cbn [bind]. eauto.
  - split; [|lia]. intros (f & K). exfalso.
    pose proof (C33_bytes_xor_partial Wrap mc a1 a2 a b x y c e W Hx Hy (or_introl eq_refl) Hc He) as E.
    unfold bytes_xor in *. rewrite Sx, Sy in *. destruct (Z.min (len c) (len e) =? 0) eqn:Z0; [lia|].
    assert (forall d l1 l2 fuel out, xor_words fuel d mc a1 l1 a2 l2 (Z.min (len c) (len e)) 0 out = Ok (0, out)) as XW.
    { intros d l1 l2 fuel out. destruct fuel; cbn [xor_words]; replace (0 + word_size mc <=? Z.min (len c) (len e)) with false by lia; reflexivity. }
    rewrite XW in *. cbn [bind] in *. destruct (xor_bytes _ _ _ _ _ _); cbn [bind] in *; discriminate.
Qed.
Print Assumptions C33_undefined.

Example C33_example_defined : bytes_xor Strict (mkMachine 8 false) 1001 2000 (Some (blk 1 [1;2;3])) (Some (blk 2 (repeat 255 8))) = Ok (NewBytes (map Some [254; 253; 252])).
Proof. vm_compute. auto. Qed.

(* ------------------------------------------------------------------ C34 *)
Theorem C34_defined : forall d mem s e p c b,
  holds p c -> 0 <= s -> e <= len mem ->
  (range_has_prefix d mem (Some (mkRange (Some s) e)) (Some p) = Ok b -> (b = true <-> prefix_of c (in_range mem s e))) /\
  (forall r, range_skip_prefix d mem (Some (mkRange (Some s) e)) (Some p) = Ok (b, r) ->
     (b = true <-> prefix_of c (in_range mem s e)) /\ r = Some (mkRange (Some (if b then s + len c else s)) e)).
Proof.
  intros d mem s e p c b Hp Hs He. destruct (C34_range_prefix_partial Wrap mem s e p c Hp (or_introl eq_refl) Hs He) as (D & b' & E' & I).
  assert (forall b, range_has_prefix d mem (Some (mkRange (Some s) e)) (Some p) = Ok b -> range_has_prefix Wrap mem (Some (mkRange (Some s) e)) (Some p) = Ok b) as M.
  { intros b0. unfold range_has_prefix. cbn [r_ptr r_end]. destruct (e >? s); auto. destruct (e - s >=? size p); auto. apply memcmp_more_bool. }
  split.
  - intros E. apply (decided _ _ _ D). apply M. exact E.
  - intros r E. unfold range_skip_prefix in E, E'. destruct (range_has_prefix d mem _ _) as [b0|] eqn:E0; cbn [bind] in E; [|discriminate].
    rewrite (M b0 eq_refl) in E'. cbn [bind] in E'. rewrite E in E'. injection E' as -> ->. auto.
Qed.
Print Assumptions C34_defined.

Theorem C34_undefined : forall mem s e p c, holds p c -> 0 <= s -> e <= len mem ->
  ((exists f, range_has_prefix Strict mem (Some (mkRange (Some s) e)) (Some p) = Fail f) <-> s < e /\ null p).
Proof.
  intros mem s e p c Hp Hs He. unfold null. destruct (bytes p) as [l|] eqn:B.
  - destruct (C34_range_prefix_partial Strict mem s e p c Hp) as ((b & E & _) & _); auto.
    + right. unfold no_null. rewrite B. discriminate.
    + rewrite E. split; [intros (f & K); discriminate|intros (_ & K); discriminate].
  - pose proof Hp as (_ & Sp & _). destruct (holds_bytes _ _ Hp) as [(r & K)|(_ & ->)]; [congruence|]. change (len (@nil Z)) with 0 in Sp.
    unfold range_has_prefix. cbn [r_ptr r_end]. rewrite Sp, B. destruct (e >? s) eqn:E.
    + replace (e - s >=? 0) with true by lia. cbn. split; [intros _; split; [lia|auto]|eauto].
    + split; [intros (f & K); discriminate|lia].
Qed.
Print Assumptions C34_undefined.

Example C34_example_defined : range_has_prefix Strict [1; 2] (Some (mkRange (Some 1) 1)) (Some (mkData None 0)) = Ok true.
Proof. reflexivity. Qed.

(* ------------------------------------------------------------------ C28 *)
Lemma text_good isp data : forall n i buf p r, hexdump_text Strict isp n data i buf p = Ok r ->
  forall k c, i <= k < i + Z.of_nat n -> rd data k = Ok c -> -1 <= s8 c.
Proof.
  induction n as [|n IH]; intros i buf p r E k c Hk R; [lia|]. cbn [hexdump_text] in E.
  destruct (rd data i) as [x|] eqn:Ex; cbn [bind] in E; [|discriminate].
  destruct (if i =? 8 then _ else _) as [(buf1, p1)|]; cbn [bind] in E; [|discriminate]. unfold libc_isprint in E.
  destruct (s8 x <? -1) eqn:E1; cbn [bind] in E; [discriminate|]. destruct (wr buf1 p1 _) as [buf2|]; cbn [bind] in E; [|discriminate].
  destruct (Z.eq_dec k i) as [->|N]; [replace x with c in E1 by congruence; lia|]. apply (IH _ _ _ _ E k c); auto. lia.
Qed.

Lemma hexdump_good isp buf data n r : hexdump Strict isp buf data n = Ok r -> forall k c, 0 <= k < Z.min n 16 -> rd data k = Ok c -> -1 <= s8 c.
Proof.
  unfold hexdump. intros E k c Hk R. destruct (hexdump_loop 16 data n 0 buf 0) as [(b1, p)|]; cbn [bind] in E; [|discriminate].
  destruct (wr b1 p _) as [b2|]; cbn [bind] in E; [|discriminate]. destruct (wr b2 _ _) as [b3|]; cbn [bind] in E; [|discriminate].
  destruct (wr b3 _ _) as [b4|]; cbn [bind] in E; [|discriminate]. destruct (wr b4 _ _) as [b5|]; cbn [bind] in E; [|discriminate].
  destruct (hexdump_text Strict isp _ data 0 b5 (p + 4)) as [x|] eqn:T; cbn [bind] in E; [|discriminate].
  apply (text_good isp data _ _ _ _ _ T k c); auto. lia.
Qed.

Lemma good_bytes isp buf data n rest r : Forall is_byte (data ++ rest) -> 0 <= n -> len data = Z.min n 16 ->
  hexdump Strict isp buf (data ++ rest) n = Ok r -> Forall (fun b => b < 128 \/ b = 255) data.
Proof.
  intros HB Hn Hd E. apply Forall_forall. intros b Hb. apply In_nth_error in Hb. destruct Hb as (k & Hk).
  assert (k < length data)%nat as L by (apply nth_error_Some; congruence).
  assert (is_byte b) as B by (rewrite Forall_forall in HB; apply HB; apply in_or_app; left; eapply nth_error_In; eauto).
  assert (-1 <= s8 b) as G.
  { apply (hexdump_good isp buf _ n r E (Z.of_nat k)); [unfold len in *; lia|]. unfold rd. rewrite Nat2Z.id, nth_error_app1 by lia. rewrite Hk.
    assert (len (data ++ rest) = len data + len rest) as LA by (unfold len; rewrite app_length; lia). 
    replace (_ && _)%bool with true; [reflexivity|]. unfold len in *. lia. }
  unfold s8, is_byte in *. destruct (b <? 128) eqn:E1; lia.
Qed.

(* without any condition on the bytes *)
Theorem C28_defined : forall d isp buf data n rest r,
  Forall is_byte (data ++ rest) -> 70 <= len buf -> 0 <= n -> len data = Z.min n 16 ->
  hexdump d isp buf (data ++ rest) n = Ok r ->
  let line := dump_line (fun b => isp (if b <? 128 then b else b - 256)) data in
  r = (Z.min n 16, map Some (line ++ [0]) ++ skipn (length line + 1) buf) /\ len line + 1 <= 70.
Proof.
  intros d isp buf data n rest r HB Hb Hn Hd E line.
  destruct (C28_hexdump_partial d isp buf data n rest HB Hb Hn Hd) as (E2 & L).
  - destruct d; [|auto]. right. eapply good_bytes; eauto.
  - split; [|exact L]. fold line in E2. congruence.
Qed.
Print Assumptions C28_defined.

Theorem C28_undefined : forall isp buf data n rest,
  Forall is_byte (data ++ rest) -> 70 <= len buf -> 0 <= n -> len data = Z.min n 16 ->
  ((exists f, hexdump Strict isp buf (data ++ rest) n = Fail f) <-> exists b, In b data /\ 128 <= b < 255).
Proof.
  intros isp buf data n rest HB Hb Hn Hd. destruct (hexdump Strict isp buf (data ++ rest) n) as [r|f] eqn:E.
  - split; [intros (f & K); discriminate|]. intros (b & Hin & R). pose proof (good_bytes isp buf data n rest r HB Hn Hd E) as G. rewrite Forall_forall in G. specialize (G b Hin). lia.
  - split; [|eauto]. intros _. destruct (Exists_dec (fun b => 128 <= b < 255) data) as [X|X].
    + intros b. destruct (Z_le_dec 128 b), (Z_lt_dec b 255); [left; lia|right; lia..].
    + apply Exists_exists in X. exact X.
    + exfalso. destruct (C28_hexdump_partial Strict isp buf data n rest HB Hb Hn Hd) as (E2 & _); [|congruence].
      right. apply Forall_forall. intros b Hin. rewrite Forall_forall in HB. specialize (HB b ltac:(apply in_or_app; auto)). unfold is_byte in HB.
      destruct (Z_lt_dec b 128); auto. right. destruct (Z.eq_dec b 255); auto. exfalso. apply X. apply Exists_exists. exists b. split; auto. lia.
Qed.
Print Assumptions C28_undefined.

Example C28_example_defined : exists r, hexdump Strict (fun c => 32 <=? c) (malloc 70) [65; 255; 10; 200] 3 = Ok r /\
  exists f, hexdump Strict (fun c => 32 <=? c) (malloc 70) [65; 255; 10; 200] 4 = Fail f.
Proof. vm_compute. eauto. Qed.
