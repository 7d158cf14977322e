(* Lemmas about data blocks *)
From Verif Require Import Base HexModel DataModel DataSpec.
From Verif Require HexProofs.
From Coq Require Import ZifyBool.
Ltac Zify.zify_post_hook ::= Z.div_mod_to_equations.
Import HexProofs (len_map, len_skipn, len_repeat).

Lemma first_diff_0 a b : length a = length b -> (first_diff a b = 0 <-> a = b).
Proof.
  revert b. induction a as [|x a IH]; intros [|y b] H; cbn in *; try discriminate; [tauto|].
  destruct (x =? y) eqn:E.
  - rewrite IH by lia. assert (x = y) by lia. subst. split; intros; [subst; auto|congruence].
  - split; intros K; [lia|]. injection K as -> _. lia.
Qed.

Lemma firstn_len_app {A} (c r : list A) n : n = len c -> firstn (Z.to_nat n) (c ++ r) = c.
Proof. intros ->. unfold len. rewrite Nat2Z.id, firstn_app, Nat.sub_diag, firstn_all. apply app_nil_r. Qed.

Lemma skipn_len_app {A} (c r : list A) n : n = len c -> skipn (Z.to_nat n) (c ++ r) = r.
Proof. intros ->. unfold len. rewrite Nat2Z.id, skipn_app, Nat.sub_diag, skipn_all. reflexivity. Qed.

Lemma len_eq_length {A C} (a : list A) (b : list C) : len a = len b -> length a = length b.
Proof. unfold len. lia. Qed.

(* memcmp of two blocks with at least n bytes *)
Lemma memcmp_spec d a b n x y : a = Some x -> b = Some y -> n <= len x -> n <= len y ->
  exists c, memcmp d a b n = Ok c /\ (c = 0 <-> firstn (Z.to_nat n) x = firstn (Z.to_nat n) y).
Proof.
  intros -> -> Hx Hy. unfold memcmp. replace ((n <=? len x) && (n <=? len y)) with true by lia.
  eexists. split; [reflexivity|]. apply first_diff_0. rewrite !firstn_length. unfold len in *. lia.
Qed.

Lemma memcmp_null d a b n : (a = None \/ b = None) -> d = Wrap -> n = 0 -> memcmp d a b n = Ok 0.
Proof. intros [-> | ->] -> ->; [|destruct a]; reflexivity. Qed.

Lemma eqb_iff (c : Z) (P : Prop) : (c = 0 <-> P) -> ((c =? 0) = true <-> P).
Proof. intros <-. apply Z.eqb_eq. Qed.

Lemma holds_bytes x c : holds x c -> (exists rest, bytes x = Some (c ++ rest)) \/ (bytes x = None /\ c = []).
Proof. intros (_ & _ & H). destruct (bytes x); [destruct H as (r & ->); eauto|auto]. Qed.

Lemma holds_pos x c : holds x c -> 0 < size x -> exists rest, bytes x = Some (c ++ rest).
Proof.
  intros H P. destruct (holds_bytes _ _ H) as [?|(_ & ->)]; auto. destruct H as (_ & H & _).
  change (len (@nil Z)) with 0 in H. lia.
Qed.

Lemma prefix_len p c : prefix_of p c -> len p <= len c.
Proof. intros (r & ->). rewrite len_app. pose proof (len_nonneg r). lia. Qed.
Lemma suffix_len p c : suffix_of p c -> len p <= len c.
Proof. intros (r & ->). rewrite len_app. pose proof (len_nonneg r). lia. Qed.

Lemma prefix_iff p c n : n = len p -> n <= len c -> (firstn (Z.to_nat n) c = p <-> prefix_of p c).
Proof.
  intros -> H. split.
  - intros E. exists (skipn (Z.to_nat (len p)) c). rewrite <- E at 1. symmetry. apply firstn_skipn.
  - intros (r & ->). apply firstn_len_app. auto.
Qed.
Lemma suffix_iff p c : len p <= len c -> (skipn (Z.to_nat (len c - len p)) c = p <-> suffix_of p c).
Proof.
  intros H. split.
  - intros E. exists (firstn (Z.to_nat (len c - len p)) c). rewrite <- E at 2. symmetry. apply firstn_skipn.
  - intros (r & ->). apply skipn_len_app. rewrite len_app. lia.
Qed.

(* comparing the first n bytes at an offset *)
Lemma memcmp_at d (x : ptr) c p q off : 
  (exists r, x = Some (c ++ r)) -> (exists r, q = Some (p ++ r)) -> 0 <= off -> off + len p <= len c ->
  exists k, memcmp d (advance x off) q (len p) = Ok k /\ (k = 0 <-> firstn (length p) (skipn (Z.to_nat off) c) = p).
Proof.
  intros (r & ->) (r2 & ->) H0 H1. cbn [advance].
  destruct (memcmp_spec d (Some (skipn (Z.to_nat off) (c ++ r))) (Some (p ++ r2)) (len p) _ _ eq_refl eq_refl) as (k & E & Ek).
  - rewrite len_skipn; rewrite len_app; pose proof (len_nonneg r); pose proof (len_nonneg p); lia.
  - rewrite len_app. pose proof (len_nonneg r2). lia.
  - exists k. split; auto. rewrite Ek, firstn_len_app by auto.
    unfold len. rewrite Nat2Z.id. rewrite skipn_app, firstn_app.
    replace (length p - length (skipn (Z.to_nat off) c))%nat with O by (rewrite skipn_length; unfold len in *; lia).
    cbn [firstn]. rewrite app_nil_r. tauto.
Qed.

Lemma advance_0 x : advance x 0 = x.
Proof. destruct x; reflexivity. Qed.

(* ---------------- copying ---------------- *)

Lemma copy_in_spec d out rest src c n p : n = len c -> p = len out -> n <= len rest ->
  ((exists r, src = Some (c ++ r)) \/ (src = None /\ c = [] /\ d = Wrap)) ->
  copy_in d (map Some out ++ rest) p src n = Ok (map Some (out ++ c) ++ skipn (length c) rest).
Proof.
  intros -> -> Hr [(r & ->)|(-> & -> & ->)].
  - cbn [copy_in]. rewrite len_app. pose proof (len_nonneg r). pose proof (len_nonneg out). replace (len c <=? len c + len r) with true by lia.
    rewrite len_app, len_map. replace ((0 <=? len out) && (len out + len c <=? len out + len rest)) with true by lia.
    rewrite firstn_len_app by (rewrite len_map; auto). rewrite firstn_len_app by auto.
    rewrite map_app, <- app_assoc. do 3 f_equal.
    rewrite skipn_app. rewrite skipn_all2 by (rewrite map_length; unfold len; lia). rewrite map_length. cbn [app]. f_equal. unfold len. lia.
  - cbn [copy_in]. change (len (@nil Z) =? 0) with true. cbv iota. rewrite app_nil_r. reflexivity.
Qed.

Lemma concat_copy_spec d : forall args cs out rest,
  Forall2 (fun a c => holds (snd a) c /\ (d = Wrap \/ no_null (snd a))) args cs ->
  len (concat cs) <= len rest ->
  concat_copy d args (map Some out ++ rest) (len out) = Ok (map Some (out ++ concat cs) ++ skipn (length (concat cs)) rest).
Proof.
  induction args as [|(a, x) args IH]; intros cs out rest F L; inversion F as [|? c ? cs' (H & N) F']; subst; cbn [concat_copy concat] in *.
  - rewrite app_nil_r. reflexivity.
  - cbn [snd] in *. rewrite len_app in L. pose proof (len_nonneg c). pose proof (len_nonneg (concat cs')).
    destruct (holds_bytes _ _ H) as [B|(B & ->)].
    + rewrite (copy_in_spec d out rest (bytes x) c); auto; [|destruct H as (_ & ? & _); auto|destruct H as (_ & -> & _); lia].
      cbn [bind]. replace (len out + size x) with (len (out ++ c)) by (rewrite len_app; destruct H as (_ & ? & _); lia).
      rewrite IH with (cs := cs'); auto.
      * rewrite <- app_assoc, skipn_skipn', app_length. rewrite (Nat.add_comm (length (concat cs'))). reflexivity.
      * rewrite len_skipn; unfold len in *; lia.
    + destruct N as [->|N]; [|contradiction].
      rewrite (copy_in_spec Wrap out rest (bytes x) []); auto; [|destruct H as (_ & ? & _); auto|destruct H as (_ & -> & _); lia].
      cbn [bind]. replace (len out + size x) with (len (out ++ [])) by (rewrite len_app; destruct H as (_ & ? & _); lia).
      rewrite IH with (cs := cs'); auto. rewrite app_nil_r. reflexivity.
Qed.

(* counting *)

Lemma concat_count_spec : forall args cs t n o,
  Forall2 (fun a c => holds (snd a) c) args cs -> 0 <= t -> t + len (concat cs) < 2^64 -> 0 <= n -> n + len args < 2^32 ->
  exists o', concat_count args t n o = (t + len (concat cs), n + len (nonempty cs), o') /\
    (nonempty cs = [] -> o' = o) /\
    (nonempty cs <> [] -> exists pre a x c post, args = pre ++ (a, x) :: post /\ o' = Some a /\ holds x c /\ c <> [] /\
        nonempty cs = nonempty (firstn (length pre) cs) ++ [c]).
Proof.
  induction args as [|(a, x) args IH]; intros cs t n o F Ht Hl Hn Hc; inversion F as [|? c ? cs' H F']; subst; cbn [concat_count concat nonempty filter] in *.
  - exists o. rewrite !Z.add_0_r. split; auto. split; auto. congruence.
  - cbn [snd] in H. rewrite len_app in Hl. pose proof (len_nonneg c). pose proof (len_nonneg (concat cs')). pose proof (len_nonneg args).
    rewrite len_cons in Hc. destruct H as (HB & HS & HP). rewrite HS. rewrite u64_id by (unfold in_u64; lia).
    destruct (len c =? 0) eqn:E; cbn [negb].
    + assert (c = []) by (destruct c; [auto|rewrite len_cons in E; pose proof (len_nonneg c); lia]). subst c. cbn [app].
      destruct (IH cs' (t + len (@nil Z)) n o F') as (o' & E1 & E2 & E3); auto; try (change (len (@nil Z)) with 0 in *; lia).
      exists o'. rewrite E1. change (len (@nil Z)) with 0. rewrite Z.add_0_r. fold (@nonempty Z cs') in *.
      split; auto. split; auto. intros K. destruct (E3 K) as (pre & a' & x' & c' & post & -> & -> & Hx & Hc' & Hn').
      exists ((a, x) :: pre), a', x', c', post. repeat (split; [auto|]). auto.
    + rewrite u32_id by (unfold in_u32; lia).
      destruct (IH cs' (t + len c) (n + 1) (Some a) F') as (o' & E1 & E2 & E3); auto; try lia.
      exists o'. rewrite E1, len_app. fold (@nonempty Z cs') in *. rewrite len_cons.
      split; [do 2 f_equal; lia|]. split; [discriminate|]. intros _.
      destruct (nonempty cs') as [|c1 l1] eqn:EN.
      * exists [], a, x, c, args. rewrite E2 by auto. split; auto. split; auto. split; [repeat split; auto|]. split; auto.
        intros ->. discriminate.
      * destruct E3 as (pre & a' & x' & c' & post & -> & -> & Hx & Hc' & Hn'); [discriminate|].
        exists ((a, x) :: pre), a', x', c', post. split; auto. split; auto. split; auto. split; auto.
        cbn [length firstn nonempty filter]. rewrite E. cbn [negb]. fold (@nonempty Z (firstn (length pre) cs')). rewrite Hn'. reflexivity.
Qed.

(* ---------------- exclusive or ---------------- *)

Lemma lxor_split a b x y : 0 <= a < 256 -> 0 <= b < 256 -> Z.lxor (a + 256 * x) (b + 256 * y) = Z.lxor a b + 256 * Z.lxor x y.
Proof.
  intros Ha Hb.
  assert (forall u v, 0 <= u < 256 -> u + 256 * v = Z.lor u (Z.shiftl v 8)) as SP.
  { intros u v Hu. rewrite Z.shiftl_mul_pow2 by lia. change (2^8) with 256. rewrite Z.mul_comm.
    assert (Z.land u (v * 256) = 0) as L.
    { apply Z.bits_inj'. intros n Hn. rewrite Z.land_spec, Z.bits_0. change 256 with (2^8).
      destruct (Z.lt_ge_cases n 8) as [K|K].
      - rewrite Z.mul_pow2_bits_low by lia. apply andb_false_r.
      - rewrite (Z.bits_above_log2 u n); [reflexivity|lia|].
        destruct (Z.eq_dec u 0); [subst; cbn; lia|]. assert (Z.log2 u < 8) by (apply Z.log2_lt_pow2; lia). lia. }
    rewrite <- Z.lxor_lor by auto. rewrite <- Z.add_nocarry_lxor by auto. reflexivity. }
  assert (0 <= Z.lxor a b < 256) as Hab.
  { split; [apply Z.lxor_nonneg; lia|]. destruct (Z.eq_dec (Z.lxor a b) 0) as [->|NZ]; [lia|].
    change 256 with (2^8). apply Z.log2_lt_pow2; [assert (0 <= Z.lxor a b) by (apply Z.lxor_nonneg; lia); lia|].
    eapply Z.le_lt_trans; [apply Z.log2_lxor; lia|].
    assert (forall u, 0 <= u < 256 -> Z.log2 u < 8) as LL.
    { intros u Hu. destruct (Z.eq_dec u 0); [subst; cbn; lia|]. apply Z.log2_lt_pow2; lia. }
    pose proof (LL a Ha). pose proof (LL b Hb). lia. }
  rewrite (SP a x), (SP b y), (SP (Z.lxor a b) (Z.lxor x y)) by auto.
  apply Z.bits_inj'. intros n Hn. rewrite !Z.lxor_spec, !Z.lor_spec, !Z.lxor_spec.
  destruct (Z.lt_ge_cases n 8) as [K|K].
  - rewrite !Z.shiftl_spec_low by lia. rewrite !orb_false_r. reflexivity.
  - rewrite !Z.shiftl_spec by lia. rewrite Z.lxor_spec.
    assert (forall u, 0 <= u < 256 -> Z.testbit u n = false) as Hi.
    { intros u Hu. apply Z.bits_above_log2; [lia|]. destruct (Z.eq_dec u 0); [subst; cbn; lia|].
      assert (Z.log2 u < 8) by (apply Z.log2_lt_pow2; lia). lia. }
    rewrite (Hi a Ha), (Hi b Hb). reflexivity.
Qed.

Lemma lxor_byte a b : is_byte a -> is_byte b -> is_byte (Z.lxor a b).
Proof.
  unfold is_byte. intros Ha Hb. split; [apply Z.lxor_nonneg; lia|]. destruct (Z.eq_dec (Z.lxor a b) 0) as [->|NZ]; [lia|].
  change 256 with (2^8). apply Z.log2_lt_pow2; [assert (0 <= Z.lxor a b) by (apply Z.lxor_nonneg; lia); lia|].
  eapply Z.le_lt_trans; [apply Z.log2_lxor; lia|].
  assert (forall u, 0 <= u < 256 -> Z.log2 u < 8) as LL.
  { intros u Hu. destruct (Z.eq_dec u 0); [subst; cbn; lia|]. apply Z.log2_lt_pow2; lia. }
  pose proof (LL a Ha). pose proof (LL b Hb). lia.
Qed.

Lemma word_xor : forall a b, length a = length b -> Forall is_byte a -> Forall is_byte b ->
  le_bytes (length a) (Z.lxor (le_word a) (le_word b)) = xor_spec a b.
Proof.
  induction a as [|x a IH]; intros [|y b] L Fa Fb; cbn [length] in L; try discriminate; [reflexivity|].
  apply Forall_cons_iff in Fa, Fb. destruct Fa as (Bx & Fa). destruct Fb as (By & Fb). cbn [length le_word le_bytes xor_spec].
  rewrite lxor_split by auto. pose proof (lxor_byte x y Bx By) as BB. unfold is_byte in BB.
  assert ((Z.lxor x y + 256 * Z.lxor (le_word a) (le_word b)) mod 256 = Z.lxor x y) as ->.
  { rewrite (Z.mul_comm 256), Z.mod_add by lia. apply Z.mod_small. lia. }
  assert ((Z.lxor x y + 256 * Z.lxor (le_word a) (le_word b)) / 256 = Z.lxor (le_word a) (le_word b)) as ->.
  { rewrite (Z.mul_comm 256), Z.div_add by lia. rewrite Z.div_small by lia. reflexivity. }
  f_equal. apply IH; auto.
Qed.

Lemma xor_spec_app a1 b1 : length a1 = length b1 -> forall a2 b2, xor_spec (a1 ++ a2) (b1 ++ b2) = xor_spec a1 b1 ++ xor_spec a2 b2.
Proof. revert b1. induction a1; intros [|y b1] L a2 b2; cbn in *; try discriminate; auto. rewrite IHa1 by lia. reflexivity. Qed.

Lemma xor_spec_len : forall a b, length (xor_spec a b) = Nat.min (length a) (length b).
Proof. induction a; intros [|y b]; cbn; auto. Qed.

Lemma xor_spec_rev : forall a b, length a = length b -> rev (xor_spec (rev a) (rev b)) = xor_spec a b.
Proof.
  induction a as [|x a IH]; intros [|y b] L; cbn in *; try discriminate; auto.
  rewrite xor_spec_app by (rewrite !rev_length; lia). rewrite rev_app_distr, IH by lia. reflexivity.
Qed.

Lemma word_xor_any (be : bool) (a b : list Z) : length a = length b -> Forall is_byte a -> Forall is_byte b ->
  let le (l : list Z) := if be then rev l else l in
  le (le_bytes (length a) (Z.lxor (le_word (le a)) (le_word (le b)))) = xor_spec a b.
Proof.
  intros L Fa Fb. destruct be; cbv zeta; [|apply word_xor; auto].
  rewrite <- (rev_length a). rewrite word_xor by (try apply Forall_rev; auto; rewrite !rev_length; auto).
  apply xor_spec_rev. auto.
Qed.

Lemma slice_split {A} (l : list A) a b c : 0 <= a <= b -> b <= c -> slice l a c = slice l a b ++ slice l b c.
Proof.
  intros H1 H2. unfold slice. replace (Z.to_nat b) with (Z.to_nat (b - a) + Z.to_nat a)%nat by lia.
  rewrite <- skipn_skipn'. rewrite <- (firstn_skipn (Z.to_nat (b - a)) (firstn (Z.to_nat (c - a)) (skipn (Z.to_nat a) l))).
  f_equal.
  - rewrite firstn_firstn. f_equal. lia.
  - rewrite skipn_firstn_comm. f_equal. lia.
Qed.

Lemma xor_words_spec d mc a1 l1 a2 l2 n (W : 0 < word_size mc) (B1 : Forall is_byte l1) (B2 : Forall is_byte l2)
  (N1 : n <= len l1) (N2 : n <= len l2) (A : d = Wrap \/ (a1 mod word_size mc = 0 /\ a2 mod word_size mc = 0)) :
  forall fuel i out rest, 0 <= i -> (d = Wrap \/ i mod word_size mc = 0) -> i <= n -> n - i <= Z.of_nat fuel -> i = len out -> n - i = len rest ->
  exists j, i <= j <= n /\
    xor_words fuel d mc a1 l1 a2 l2 n i (map Some out ++ rest) =
      Ok (j, map Some (out ++ xor_spec (slice l1 i j) (slice l2 i j)) ++ skipn (Z.to_nat (j - i)) rest).
Proof.
  induction fuel; intros i out rest Hi Ha Hn Hf Ho Hr; cbn [xor_words].
  - replace (i + word_size mc <=? n) with false by lia. exists i. split; [lia|].
    rewrite !slice_nil by lia. cbn [xor_spec]. rewrite app_nil_r. replace (Z.to_nat (i - i)) with O by lia. reflexivity.
  - destruct (i + word_size mc <=? n) eqn:E.
    + set (w := word_size mc) in *.
      assert (load d mc a1 l1 i = Ok (le_word (if big_endian mc then rev (slice l1 i (i + w)) else slice l1 i (i + w)))) as ->.
      { unfold load. fold w. replace (match d with Strict => (a1 + i) mod w =? 0 | Wrap => true end) with true.
        - replace ((0 <=? i) && (i + w <=? len l1)) with true by lia. reflexivity.
        - destruct d; auto. symmetry. destruct A as [?|(A1 & A2)]; [discriminate|]. destruct Ha as [?|Ha]; [discriminate|].
          rewrite Z.add_mod, A1, Ha by lia. rewrite Z.add_0_l. rewrite Z.mod_0_l by lia. reflexivity. }
      cbn [bind].
      assert (load d mc a2 l2 i = Ok (le_word (if big_endian mc then rev (slice l2 i (i + w)) else slice l2 i (i + w)))) as ->.
      { unfold load. fold w. replace (match d with Strict => (a2 + i) mod w =? 0 | Wrap => true end) with true.
        - replace ((0 <=? i) && (i + w <=? len l2)) with true by lia. reflexivity.
        - destruct d; auto. symmetry. destruct A as [?|(A1 & A2)]; [discriminate|]. destruct Ha as [?|Ha]; [discriminate|].
          rewrite Z.add_mod, A2, Ha by lia. rewrite Z.add_0_l. rewrite Z.mod_0_l by lia. reflexivity. }
      cbn [bind].
      set (s1 := slice l1 i (i + w)). set (s2 := slice l2 i (i + w)).
      assert (len s1 = w) as L1 by (unfold s1; rewrite slice_len; lia). assert (len s2 = w) as L2 by (unfold s2; rewrite slice_len; lia).
      assert (length s1 = length s2) as L12 by (unfold len in *; lia).
      unfold save. fold w. rewrite len_app, len_map. replace ((0 <=? i) && (i + w <=? len out + len rest)) with true by lia. cbn [bind].
      replace (Z.to_nat w) with (length s1) by (unfold len in *; lia).
      rewrite (word_xor_any (big_endian mc) s1 s2) by (auto; apply slice_Forall; auto).
      rewrite firstn_len_app by (rewrite len_map; auto).
      assert (skipn (Z.to_nat (i + w)) (map Some out ++ rest) = skipn (Z.to_nat w) rest) as ->.
      { rewrite skipn_app, skipn_all2 by (rewrite map_length; unfold len in *; lia). rewrite map_length. cbn [app]. f_equal. unfold len in *; lia. }
      rewrite app_assoc, <- map_app.
      assert (length (xor_spec s1 s2) = Z.to_nat w) as LX by (rewrite xor_spec_len; unfold len in *; lia).
      destruct (IHfuel (i + w) (out ++ xor_spec s1 s2) (skipn (Z.to_nat w) rest)) as (j & Hj & Ej).
      * lia.
      * destruct Ha as [?|Ha]; auto. right. rewrite <- (Z.mul_1_l w) at 1. rewrite Z.mod_add; lia.
      * lia.
      * lia.
      * rewrite len_app. unfold len in *. lia.
      * rewrite len_skipn by lia. lia.
      * exists j. split; [lia|]. rewrite Ej. rewrite (slice_split l1 i (i + w) j), (slice_split l2 i (i + w) j) by lia.
        fold s1 s2. rewrite xor_spec_app by auto. rewrite <- app_assoc, skipn_skipn'. do 3 f_equal. f_equal. lia.
    + exists i. split; [lia|]. rewrite !slice_nil by lia. cbn [xor_spec]. rewrite app_nil_r. replace (Z.to_nat (i - i)) with O by lia. reflexivity.
Qed.

Lemma xor_bytes_spec l1 l2 n (N1 : n <= len l1) (N2 : n <= len l2) :
  forall fuel i out rest, 0 <= i <= n -> n - i <= Z.of_nat fuel -> i = len out -> n - i = len rest ->
  xor_bytes fuel l1 l2 n i (map Some out ++ rest) = Ok (map Some (out ++ xor_spec (slice l1 i n) (slice l2 i n))).
Proof.
  induction fuel; intros i out rest Hi Hf Ho Hr; cbn [xor_bytes].
  - replace (i <? n) with false by lia. rewrite !slice_nil by lia. cbn [xor_spec]. rewrite app_nil_r.
    destruct rest; [|rewrite len_cons in Hr; pose proof (len_nonneg rest); lia]. rewrite app_nil_r. reflexivity.
  - destruct (i <? n) eqn:E.
    + destruct (rd_in l1 i ltac:(lia)) as (x & Hx). destruct (rd_in l2 i ltac:(lia)) as (y & Hy). rewrite Hx, Hy. cbn [bind].
      change (map Some out ++ rest) with (HexProofs.B out rest). rewrite HexProofs.put by (auto; lia). cbn [bind]. unfold HexProofs.B.
      rewrite IHfuel; [| lia | lia | rewrite len_app; change (len [Z.lxor x y]) with 1; lia | rewrite len_skipn by lia; lia].
      rewrite (slice_cons l1 i n x Hx), (slice_cons l2 i n y Hy) by lia. cbn [xor_spec]. rewrite <- app_assoc. reflexivity.
    + rewrite !slice_nil by lia. cbn [xor_spec]. rewrite app_nil_r.
      destruct rest; [|rewrite len_cons in Hr; pose proof (len_nonneg rest); lia]. rewrite app_nil_r. reflexivity.
Qed.

Lemma xor_spec_prefix a b n : n = Z.min (len a) (len b) -> xor_spec (firstn (Z.to_nat n) a) (firstn (Z.to_nat n) b) = xor_spec a b.
Proof.
  intros ->. replace (Z.to_nat (Z.min (len a) (len b))) with (Nat.min (length a) (length b)) by (unfold len; lia).
  revert b. induction a; intros [|y b]; cbn; auto. f_equal. apply IHa.
Qed.
