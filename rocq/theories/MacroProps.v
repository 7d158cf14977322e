(* The properties C74, C75 and C86 *)
From Coq Require Import String Ascii Bool.
From Verif Require Import Base MacroModel MacroSpec.
From Coq Require Import List.
Import ListNotations.
Open Scope Z_scope.

(* ---------------- C74 ---------------- *)

Lemma land_ones n v : 0 <= n -> Z.land v (Z.ones n) = v mod 2 ^ n.
Proof. intros. apply Z.land_ones. auto. Qed.
Lemma lor_add a b n : 0 <= n -> 0 <= b < 2 ^ n -> a mod 2 ^ n = 0 -> Z.lor a b = a + b.
Proof.
  intros Hn Hb Ha. rewrite Z.add_nocarry_lxor, <- Z.lxor_lor; auto; apply Z.bits_inj'; intros i Hi; rewrite Z.land_spec, Z.bits_0.
  all: destruct (Z.lt_ge_cases i n) as [L|L].
  1,3: replace (Z.testbit a i) with false; [reflexivity|]; rewrite <- (Z.mod_pow2_bits_low a n i) by lia; rewrite Ha; symmetry; apply Z.bits_0.
  all: replace (Z.testbit b i) with false; [apply andb_false_r|]; rewrite <- (Z.mod_small b (2 ^ n)) by lia; symmetry; apply Z.mod_pow2_bits_high; lia.
Qed.
Lemma arith32_in d z : in_s32 z -> arith32 d z = Ok z.
Proof. intros H. unfold arith32. destruct d; [|rewrite s32_id; auto]. destruct H. destruct (Z.leb_spec (-2^31) z), (Z.ltb_spec z (2^31)); try lia. reflexivity. Qed.
Lemma arith64_in d z : in_s64 z -> arith64 d z = Ok z.
Proof. intros H. unfold arith64. destruct d; [|rewrite s64_id; auto]. destruct H. destruct (Z.leb_spec (-2^63) z), (Z.ltb_spec z (2^63)); try lia. reflexivity. Qed.
Lemma arith32_out d z : ~ in_s32 z -> arith32 d z = match d with Strict => Fail SignedOverflow | Wrap => Ok (s32 z) end.
Proof. intros H. unfold arith32. destruct d; auto. unfold in_s32 in H. destruct (Z.leb_spec (-2^31) z), (Z.ltb_spec z (2^31)); try lia; reflexivity. Qed.
Lemma arith64_out d z : ~ in_s64 z -> arith64 d z = match d with Strict => Fail SignedOverflow | Wrap => Ok (s64 z) end.
Proof. intros H. unfold arith64. destruct d; auto. unfold in_s64 in H. destruct (Z.leb_spec (-2^63) z), (Z.ltb_spec z (2^63)); try lia; reflexivity. Qed.
Lemma version_sum d t v1 v2 v3 : version_ d t v1 v2 v3 = Ok (2 ^ 24 * (v1 mod 2 ^ 7) + 2 ^ 12 * (v2 mod 2 ^ 12) + v3 mod 2 ^ 12).
Proof.
  unfold version_. change 127 with (Z.ones 7). change 4095 with (Z.ones 12). rewrite !land_ones by lia. rewrite !Z.shiftl_mul_pow2 by lia.
  pose proof (Z.mod_pos_bound v1 (2 ^ 7) ltac:(lia)). pose proof (Z.mod_pos_bound v2 (2 ^ 12) ltac:(lia)). pose proof (Z.mod_pos_bound v3 (2 ^ 12) ltac:(lia)).
  assert (Fit : forall z, 0 <= z < 2 ^ 31 -> fit d t z = Ok z).
  { intros z Hz. unfold fit. destruct t; [apply arith32_in; unfold in_s32; lia|rewrite u32_id; auto; unfold in_u32; lia|apply arith64_in; unfold in_s64; lia|rewrite u64_id; auto; unfold in_u64; lia]. }
  rewrite (Fit (v1 mod 2 ^ 7 * 2 ^ 24)) by lia. cbn [bind]. rewrite (Fit (v2 mod 2 ^ 12 * 2 ^ 12)) by lia. cbn [bind].
  rewrite (lor_add (v1 mod 2 ^ 7 * 2 ^ 24) _ 24); [|lia|lia|apply Z.mod_mul; lia]. rewrite (lor_add _ _ 12); [f_equal; lia|lia|lia|].
  replace (v1 mod 2 ^ 7 * 2 ^ 24 + v2 mod 2 ^ 12 * 2 ^ 12) with ((v1 mod 2 ^ 7 * 2 ^ 12 + v2 mod 2 ^ 12) * 2 ^ 12) by lia. apply Z.mod_mul. lia.
Qed.

(* Arguments of any type: the word fits into an int, and the accessors return the numbers *)
Theorem C74_accessors d t a b c : proper (a, b, c) ->
  exists v, version_ d t a b c = Ok v /\ 0 <= v < 2 ^ 31 /\ version_major_ v = a /\ version_minor_ v = b /\ version_micro_ v = c.
Proof.
  intros (Ha & Hb & Hc). rewrite version_sum. rewrite !Z.mod_small by lia. eexists. split; [reflexivity|]. split; [lia|]. unfold version_major_, version_minor_, version_micro_.
  change 127 with (Z.ones 7). change 4095 with (Z.ones 12). rewrite !land_ones by lia. rewrite !Z.shiftr_div_pow2 by lia. split; [|split].
  - rewrite <- (Z.div_unique (2 ^ 24 * a + 2 ^ 12 * b + c) (2 ^ 24) a (2 ^ 12 * b + c)) by lia. apply Z.mod_small. lia.
  - rewrite <- (Z.div_unique (2 ^ 24 * a + 2 ^ 12 * b + c) (2 ^ 12) (2 ^ 12 * a + b) c) by lia. symmetry. apply (Z.mod_unique_pos _ _ a); lia.
  - symmetry. apply (Z.mod_unique_pos _ _ (2 ^ 12 * a + b)); lia.
Qed.
Print Assumptions C74_accessors.

Theorem C74_order d t t' x y : proper x -> proper y ->
  exists v w, (let '(a, b, c) := x in version_ d t a b c) = Ok v /\ (let '(a, b, c) := y in version_ d t' a b c) = Ok w /\ (v < w <-> before x y) /\ (v = w <-> x = y).
Proof.
  destruct x as ((a & b) & c), y as ((a' & b') & c'). intros (Ha & Hb & Hc) (Ha' & Hb' & Hc'). rewrite !version_sum. rewrite !Z.mod_small by lia. eexists. eexists. split; [reflexivity|]. split; [reflexivity|]. unfold before. split.
  - lia.
  - split; [|congruence]. intros H. assert (a = a') by lia. assert (b = b') by lia. assert (c = c') by lia. congruence.
Qed.
Print Assumptions C74_order.

(* Other numbers lose their upper bits, which is not an error *)
Theorem C74_others d t a b c : version_ d t a b c = version_ d t (a mod 128) (b mod 4096) (c mod 4096) /\ exists v, version_ d t a b c = Ok v.
Proof. rewrite !version_sum. change 128 with (2 ^ 7). change 4096 with (2 ^ 12). rewrite !Z.mod_mod by lia. eauto. Qed.
Print Assumptions C74_others.

(* The version of the headers and of the library are the same, and that of the string *)
Theorem C74_current d : exists v, GUTIL_VERSION d = Ok v /\ gutil_version d = Ok v /\
  VERSION_STRING = (decimal (version_major_ v) ++ "." ++ decimal (version_minor_ v) ++ "." ++ decimal (version_micro_ v))%string.
Proof. exists (2 ^ 24 + 79). unfold GUTIL_VERSION, gutil_version. rewrite !version_sum. repeat split. Qed.
Print Assumptions C74_current.
Example C74_example : version_ Strict TInt 127 4095 4095 = Ok (2 ^ 31 - 1) /\ proper (127, 4095, 4095) /\ before (1, 0, 79) (1, 1, 0) /\ version_ Strict TInt 1 (-1) 4096 = version_ Strict TInt 1 4095 0.
Proof. repeat split; try reflexivity; try lia. right. split; [reflexivity|]. left. lia. Qed.

(* ---------------- C75 ---------------- *)

Lemma align_mask z k n : 0 <= n -> k = 2 ^ n - 1 -> Z.land z (- k - 1) = z - z mod 2 ^ n.
Proof.
  intros Hn ->. replace (- (2 ^ n - 1) - 1) with (- 2 ^ n) by lia. pose proof (Z.pow_pos_nonneg 2 n ltac:(lia) Hn).
  assert (E : Z.land z (- 2 ^ n) = Z.ldiff z (Z.ones n)). { rewrite Z.ones_equiv. replace (- 2 ^ n) with (Z.lnot (Z.pred (2 ^ n))) by (unfold Z.lnot; lia). symmetry. apply Z.ldiff_land. }
  rewrite E, Z.ldiff_ones_r by auto. rewrite Z.shiftl_mul_pow2, Z.shiftr_div_pow2 by auto. pose proof (Z.div_mod z (2 ^ n)). lia.
Qed.
Lemma align_spec z n : 0 < n -> aligned n z ((z + (n - 1)) - (z + (n - 1)) mod n).
Proof.
  intros Hn. pose proof (Z.div_mod (z + (n - 1)) n ltac:(lia)) as D. pose proof (Z.mod_pos_bound (z + (n - 1)) n Hn) as B. set (q := (z + (n - 1)) / n) in *. split; [exists q; lia|]. split; [lia|].
  intros q' H. assert (q <= q'); [|nia]. assert (n * q < n * (q' + 1)) by lia. apply Z.mul_lt_mono_pos_l in H0; lia.
Qed.
Lemma land_mod a b n : 0 <= n -> Z.land a b mod 2 ^ n = Z.land (a mod 2 ^ n) (b mod 2 ^ n).
Proof. intros Hn. apply Z.bits_inj'. intros i Hi. rewrite Z.land_spec. destruct (Z.lt_ge_cases i n) as [L|L]; [rewrite !Z.mod_pow2_bits_low by lia; apply Z.land_spec|rewrite !Z.mod_pow2_bits_high by lia; reflexivity]. Qed.
Lemma g_align_spec d t n v : 0 <= n <= 3 -> in_type t v -> in_type t (v + (2 ^ n - 1)) -> exists r, g_align d t (2 ^ n - 1) v = Ok r /\ aligned (2 ^ n) v r.
Proof.
  intros Hn Hv Hw. assert (Hp : 1 <= 2 ^ n <= 8). { assert (C : n = 0 \/ n = 1 \/ n = 2 \/ n = 3) by lia. destruct C as [->|[->|[->| ->]]]; lia. }
  exists ((v + (2 ^ n - 1)) - (v + (2 ^ n - 1)) mod 2 ^ n). split; [|apply align_spec; lia]. unfold g_align. set (k := 2 ^ n - 1) in *. set (w := v + k) in *.
  assert (Mk : Z.land w (- k - 1) = w - w mod 2 ^ n) by (apply align_mask; [lia|reflexivity]).
  pose proof (Z.mod_pos_bound w (2 ^ n) ltac:(lia)) as Mb.
  destruct t; cbn [fit in_type] in *.
  - rewrite (arith32_in d w Hw). cbn [bind]. rewrite (arith32_in d (- k - 1)) by (unfold in_s32; lia). cbn [bind]. rewrite Mk. reflexivity.
  - rewrite (u32_id w Hw). cbn [bind]. rewrite <- (Z.mod_small w (2 ^ 32)) at 1 by exact Hw. unfold u32. rewrite <- land_mod by lia. rewrite Mk. rewrite Z.mod_small; [reflexivity|]. unfold in_u32 in Hw. pose proof (Z.mod_le w (2 ^ n)). lia.
  - rewrite (arith64_in d w Hw). cbn [bind]. rewrite (arith64_in d (- k - 1)) by (unfold in_s64; lia). cbn [bind]. rewrite Mk. reflexivity.
  - rewrite (u64_id w Hw). cbn [bind]. rewrite <- (Z.mod_small w (2 ^ 64)) at 1 by exact Hw. unfold u64. rewrite <- land_mod by lia. rewrite Mk. rewrite Z.mod_small; [reflexivity|]. unfold in_u64 in Hw. pose proof (Z.mod_le w (2 ^ n)). lia.
Qed.

(* for all values, negative ones as well, for which the sum does not overflow *)
Theorem C75_align d t v : in_type t v ->
  (in_type t (v + 1) -> exists r, G_ALIGN2 d t v = Ok r /\ aligned 2 v r) /\ (in_type t (v + 3) -> exists r, G_ALIGN4 d t v = Ok r /\ aligned 4 v r) /\ (in_type t (v + 7) -> exists r, G_ALIGN8 d t v = Ok r /\ aligned 8 v r).
Proof. intros Hv. split; [|split]; intros H; [apply (g_align_spec d t 1 v)|apply (g_align_spec d t 2 v)|apply (g_align_spec d t 3 v)]; auto; lia. Qed.
Print Assumptions C75_align.
(* the result is the only value of that kind *)
Theorem C75_unique n v r s : aligned n v r -> aligned n v s -> r = s.
Proof. intros ((q & Hq) & H1 & H2) ((q' & Hq') & H3 & H4). subst. specialize (H2 q' H3). specialize (H4 q H1). lia. Qed.
Print Assumptions C75_unique.
(* Within 7 of the maximum: 0 if the type is unsigned, undefined if it is signed *)
Theorem C75_limit d t v : in_type t v -> ~ in_type t (v + 7) -> G_ALIGN8 d t v = (if is_signed t then match d with Strict => Fail SignedOverflow | Wrap => Ok (match t with TInt => - 2 ^ 31 | _ => - 2 ^ 63 end) end else Ok 0).
Proof.
  intros Hv Hw. unfold G_ALIGN8, g_align. destruct t; cbn [fit in_type is_signed] in *.
  - rewrite (arith32_out d (v + 7)) by auto. unfold in_s32 in *. destruct d; [reflexivity|]. cbn [bind].
    assert (C : exists j, 0 <= j < 7 /\ v = 2 ^ 31 - 7 + j) by (exists (v - (2 ^ 31 - 7)); lia). destruct C as (j & Hj & ->). assert (C : j = 0 \/ j = 1 \/ j = 2 \/ j = 3 \/ j = 4 \/ j = 5 \/ j = 6) by lia. destruct C as [->|[->|[->|[->|[->|[->| ->]]]]]]; reflexivity.
  - unfold in_u32 in *. assert (C : exists j, 0 <= j < 7 /\ v = 2 ^ 32 - 7 + j) by (exists (v - (2 ^ 32 - 7)); lia). destruct C as (j & Hj & ->). assert (C : j = 0 \/ j = 1 \/ j = 2 \/ j = 3 \/ j = 4 \/ j = 5 \/ j = 6) by lia. destruct C as [->|[->|[->|[->|[->|[->| ->]]]]]]; reflexivity.
  - rewrite (arith64_out d (v + 7)) by auto. unfold in_s64 in *. destruct d; [reflexivity|]. cbn [bind].
    assert (C : exists j, 0 <= j < 7 /\ v = 2 ^ 63 - 7 + j) by (exists (v - (2 ^ 63 - 7)); lia). destruct C as (j & Hj & ->). assert (C : j = 0 \/ j = 1 \/ j = 2 \/ j = 3 \/ j = 4 \/ j = 5 \/ j = 6) by lia. destruct C as [->|[->|[->|[->|[->|[->| ->]]]]]]; reflexivity.
  - unfold in_u64 in *. assert (C : exists j, 0 <= j < 7 /\ v = 2 ^ 64 - 7 + j) by (exists (v - (2 ^ 64 - 7)); lia). destruct C as (j & Hj & ->). assert (C : j = 0 \/ j = 1 \/ j = 2 \/ j = 3 \/ j = 4 \/ j = 5 \/ j = 6) by lia. destruct C as [->|[->|[->|[->|[->|[->| ->]]]]]]; reflexivity.
Qed.
Print Assumptions C75_limit.
Example C75_example : G_ALIGN8 Strict TUint64 (2 ^ 64 - 8) = Ok (2 ^ 64 - 8) /\ G_ALIGN4 Strict TInt (-5) = Ok (-4) /\ G_ALIGN2 Strict TUint 7 = Ok 8 /\ G_ALIGN8 Strict TUint (2 ^ 32 - 7) = Ok 0.
Proof. repeat split. Qed.

(* ---------------- C86 ---------------- *)

Lemma open_app s : forall n t, open_after n (s ++ t) = match open_after n s with Some m => open_after m t | None => None end.
Proof.
  induction s as [|c s IH]; intros n t; [reflexivity|]. cbn [append open_after]. destruct c as [[] [] [] [] [] [] [] []]; try apply IH. destruct n; [reflexivity|apply IH].
Qed.
Lemma open_more s : forall n m k, open_after n s = Some m -> open_after (n + k) s = Some (m + k)%nat.
Proof.
  induction s as [|c s IH]; intros n m k; [cbn; congruence|]. cbn [open_after]. destruct c as [[] [] [] [] [] [] [] []]; try apply IH; [destruct n as [|n]; [discriminate|apply IH]|]. intros H. apply (IH (S n)). exact H.
Qed.

(* Up to 1.0.74 the macros stand for an expression with the value the name says. Missing: those from
   1.0.75 on, one of which is the current version. *)
Theorem C86_specific_partial n text : In (n, text) specific_versions -> n <= 74 ->
  usable text /\ text = ("GUTIL_VERSION_(1,0," ++ decimal n ++ ")")%string.
Proof.
  intros H Hn. assert (B : forall s, balanced s -> usable s).
  { intros s Bs pre post. unfold balanced in *. rewrite !open_app. destruct (open_after 0 pre) as [m|]; [|discriminate]. rewrite !open_app. change (open_after m "0") with (Some m). pose proof (open_more s 0 0 m Bs) as X. cbn [Nat.add] in X. rewrite X. auto. }
  unfold specific_versions in H. repeat (destruct H as [H|H]; [injection H as <- <-; (solve [exfalso; lia] || (split; [apply B; reflexivity|reflexivity]))|]). contradiction.
Qed.
Print Assumptions C86_specific_partial.
(* the others have a parenthesis too many: they cannot be used where a number may, wherever it is *)
Theorem C86_excess n text : In (n, text) specific_versions -> 75 <= n -> ~ usable text /\ forall pre post, balanced (pre ++ "0" ++ post) -> ~ balanced (pre ++ text ++ post).
Proof.
  intros H Hn. assert (B : forall s pre post, (forall m, open_after (S m) s = Some m) -> open_after 0 s = None -> balanced (pre ++ "0" ++ post) -> ~ balanced (pre ++ s ++ post)).
  { intros s pre post Bs B0. unfold balanced. rewrite !open_app. destruct (open_after 0 pre) as [m|]; [|discriminate]. rewrite !open_app. change (open_after m "0") with (Some m). destruct m as [|m]; [rewrite B0; discriminate|]. rewrite Bs.
    intros H1 H2. pose proof (open_more post m 0 1 H2) as X. replace (m + 1)%nat with (S m) in X by lia. cbn [Nat.add] in X. rewrite X in H1. discriminate H1. }
  assert (G : forall pre post, balanced (pre ++ "0" ++ post) -> ~ balanced (pre ++ text ++ post)).
  { unfold specific_versions in H. repeat (destruct H as [H|H]; [injection H as <- <-; try (exfalso; lia); intros pre post; apply B; reflexivity|]). contradiction. }
  split; auto. intros U. apply (G "" "")%string; [reflexivity|]. apply (U "" "")%string. reflexivity.
Qed.
Print Assumptions C86_excess.
(* There is one macro for each version from 1.0.69 to the current one, and the parenthesis is all that is wrong *)
Theorem C86_table n : (69 <= n <= MICRO <-> exists text, In (n, text) specific_versions) /\
  forall text, In (n, text) specific_versions -> text = (("GUTIL_VERSION_(1,0," ++ decimal n ++ ")") ++ (if (n <=? 74)%Z then "" else ")"))%string.
Proof.
  split; [split|].
  - intros H. unfold MICRO in H. assert (C : n = 69 \/ n = 70 \/ n = 71 \/ n = 72 \/ n = 73 \/ n = 74 \/ n = 75 \/ n = 76 \/ n = 77 \/ n = 78 \/ n = 79) by lia.
    repeat (destruct C as [C|C]; [subst n; eexists; cbn [specific_versions In]; auto 20|]). subst n; eexists; cbn [specific_versions In]; auto 20.
  - intros (text & H). unfold MICRO. unfold specific_versions in H. repeat (destruct H as [H|H]; [injection H as <- _; lia|]). contradiction.
  - intros text H. unfold specific_versions in H. repeat (destruct H as [H|H]; [injection H as <- <-; reflexivity|]). contradiction.
Qed.
Print Assumptions C86_table.
(* the macro of this very version *)
Theorem C86_refuted : exists text, In (MICRO, text) specific_versions /\ ~ usable text.
Proof. exists "GUTIL_VERSION_(1,0,79))"%string. assert (H : In (MICRO, "GUTIL_VERSION_(1,0,79))"%string) specific_versions) by (cbn; auto 20). split; auto. apply (C86_excess _ _ H). unfold MICRO. lia. Qed.
Print Assumptions C86_refuted.
Example C86_example : In (74, "GUTIL_VERSION_(1,0,74)"%string) specific_versions /\ In (79, "GUTIL_VERSION_(1,0,79))"%string) specific_versions /\ balanced "if (gutil_version() >= 0) f();" /\ ~ balanced "if (gutil_version() >= GUTIL_VERSION_(1,0,79))) f();" /\ balanced "if (gutil_version() >= GUTIL_VERSION_(1,0,74)) f();".
Proof. cbn [specific_versions In]. repeat split; auto 20; try reflexivity. intros X. discriminate X. Qed.
