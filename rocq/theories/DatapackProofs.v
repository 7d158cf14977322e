(* Proofs about the datapack model *)
From Coq Require Import ZifyBool.
From Verif Require Import Base DatapackModel DatapackSpec.
Ltac Zify.zify_post_hook ::= Z.div_mod_to_equations.

(* ---------- bits ---------- *)

Definition all_bytes : list Z := map Z.of_nat (seq 0 256).
Lemma byte_enum (P : Z -> bool) :
  forallb P all_bytes = true -> forall b, is_byte b -> P b = true.
Proof.
  intros H b Hb. rewrite forallb_forall in H. apply H.
  unfold all_bytes. apply in_map_iff. exists (Z.to_nat b). unfold is_byte in Hb.
  split; [lia|]. apply in_seq. lia.
Qed.

Lemma land_7f b : Z.land b 0x7f = b mod 128.
Proof. exact (Z.land_ones b 7 ltac:(lia)). Qed.

Lemma land_80 b : is_byte b -> (Z.land b 0x80 =? 0) = (b <? 128).
Proof.
  intros. apply eqb_prop.
  apply (byte_enum (fun b => eqb (Z.land b 0x80 =? 0) (b <? 128))); auto.
Qed.

Lemma land_40 b : is_byte b -> (Z.land b 0x40 =? 0) = (b mod 128 <? 64).
Proof.
  intros. apply eqb_prop.
  apply (byte_enum (fun b => eqb (Z.land b 0x40 =? 0) (b mod 128 <? 64))); auto.
Qed.

Lemma lor_shift_add w x k : 0 <= k -> 0 <= x < 2^k -> Z.lor (w * 2^k) x = w * 2^k + x.
Proof.
  intros Hk Hx.
  assert (Z.land (w * 2^k) x = 0) as H0.
  { apply Z.bits_inj'. intros n Hn. rewrite Z.land_spec, Z.bits_0.
    rewrite <- Z.shiftl_mul_pow2 by lia. rewrite Z.shiftl_spec by lia.
    destruct (Z.ltb_spec n k).
    - rewrite (Z.testbit_neg_r w) by lia. reflexivity.
    - replace (Z.testbit x n) with false; [apply andb_false_r|].
      symmetry. destruct (Z.eq_dec x 0) as [->|]; [apply Z.bits_0|].
      apply Z.bits_above_log2; [lia|]. apply Z.log2_lt_pow2; [lia|].
      apply Z.lt_le_trans with (2^k); [lia|]. apply Z.pow_le_mono_r; lia. }
  rewrite <- Z.lxor_lor by assumption. symmetry. apply Z.add_nocarry_lxor. assumption.
Qed.

Lemma u64_push v x : 0 <= x < 128 -> Z.lor (u64 (Z.shiftl v 7)) x = u64 (v * 128 + x).
Proof.
  intros Hx. rewrite Z.shiftl_mul_pow2 by lia.
  unfold u64. change (2^7) with 128. change (2^64) with (128 * 2^57).
  rewrite (Z.mul_comm v 128), Z.mul_mod_distr_l by lia.
  rewrite (Z.mul_comm 128 (v mod 2^57)). change 128 with (2^7) at 1.
  rewrite lor_shift_add by lia. change (2^7) with 128.
  change (128 * 2^57) with (2^64). lia.
Qed.

Lemma u64_u64_push v x : u64 (u64 v * 128 + x) = u64 (v * 128 + x).
Proof. unfold u64. lia. Qed.

Lemma shiftr7 v : Z.shiftr v 7 = v / 128.
Proof. exact (Z.shiftr_div_pow2 v 7 ltac:(lia)). Qed.

Lemma u8_lor_80 v : u8 (Z.lor v 0x80) = v mod 128 + 128.
Proof.
  unfold u8. rewrite <- Z.land_ones by lia. rewrite Z.land_lor_distr_l.
  rewrite Z.land_ones by lia. change (Z.land 128 (Z.ones 8)) with 128.
  change (2^8) with 256.
  assert (is_byte (v mod 256)) as H by (unfold is_byte; lia).
  assert (Z.lor (v mod 256) 128 = (v mod 256) mod 128 + 128) as ->; [|lia].
  apply Z.eqb_eq. revert H. generalize (v mod 256) as b.
  apply byte_enum. reflexivity.
Qed.

Lemma u8_small v : 0 <= v < 256 -> u8 v = v.
Proof. unfold u8. change (2^8) with 256. lia. Qed.

(* ---------- uval ---------- *)

Lemma uval_snoc l b : uval (l ++ [b]) = uval l * 128 + b mod 128.
Proof. unfold uval. rewrite fold_left_app. reflexivity. Qed.

Lemma uval_nonneg l : 0 <= uval l.
Proof. induction l using rev_ind; [cbn; lia|]. rewrite uval_snoc. lia. Qed.

Lemma pow128_succ n : 0 <= n -> 128 ^ (1 + n) = 128 * 128 ^ n.
Proof. intros. rewrite Z.pow_add_r by lia. reflexivity. Qed.

Lemma uval_bound l : uval l < 128 ^ len l.
Proof.
  induction l using rev_ind; [cbn; lia|].
  rewrite uval_snoc, len_app. change (len [x]) with 1.
  rewrite (Z.add_comm (len l) 1), pow128_succ by apply len_nonneg. lia.
Qed.

Lemma uval_cons b l : uval (b :: l) = (b mod 128) * 128 ^ len l + uval l.
Proof.
  induction l using rev_ind.
  - change (len (@nil Z)) with 0. unfold uval. cbn [fold_left]. lia.
  - change (b :: l ++ [x]) with ((b :: l) ++ [x]).
    rewrite !uval_snoc, IHl, len_app. change (len [x]) with 1.
    rewrite (Z.add_comm (len l)), pow128_succ by apply len_nonneg. lia.
Qed.

Lemma pow128 n : 0 <= n -> 128 ^ n = 2 ^ (7 * n).
Proof. intros. change 128 with (2^7). rewrite <- Z.pow_mul_r by lia. reflexivity. Qed.

(* ---------- shape ---------- *)

Definition cont (b : Z) : Prop := 128 <= b < 256.

Lemma shape_unique c t rest enc rest' :
  Forall cont c -> 0 <= t < 128 -> c ++ t :: rest = enc ++ rest' -> mbn_shape enc ->
  enc = c ++ [t].
Proof.
  intros Hc Ht E (c' & t' & -> & Hc' & Ht').
  change (Forall cont c') in Hc'.
  revert c' E Hc'. induction c as [|x c IH]; intros c' E Hc'.
  - destruct c' as [|y c'].
    + cbn in E. inversion E. reflexivity.
    + cbn in E. inversion E; subst. inversion Hc'; subst. unfold cont in *. lia.
  - inversion Hc; subst. destruct c' as [|y c'].
    + cbn in E. inversion E; subst. unfold cont in *. lia.
    + cbn in E. inversion E; subst. inversion Hc'; subst.
      cbn. f_equal. apply IH; auto.
Qed.

Lemma all_cont_no_shape l enc rest :
  Forall cont l -> l = enc ++ rest -> mbn_shape enc -> False.
Proof.
  intros H -> (c & t & -> & _ & Ht). rewrite !Forall_app in H.
  destruct H as [[_ H] _]. inversion H; subst. unfold cont in *. lia.
Qed.

(* an initial run of continuation bytes bounds the length of the encoding from below *)
Lemma shape_long c rest enc rest' :
  Forall cont c -> c ++ rest = enc ++ rest' -> mbn_shape enc -> len c < len enc.
Proof.
  intros Hc E (c' & t' & -> & Hc' & Ht'). rewrite len_app. change (len [t']) with 1.
  enough (len c <= len c') by lia.
  revert c' E Hc'. induction c as [|x c IH]; intros c' E Hc'; [apply len_nonneg|].
  inversion Hc; subst. destruct c' as [|y c'].
  - cbn in E. inversion E; subst. unfold cont in *. lia.
  - cbn in E. inversion E; subst. inversion Hc'; subst. rewrite !len_cons.
    specialize (IH H2 c' H3 H5). lia.
Qed.

(* ---------- the decoder loop ---------- *)

Lemma dec_loop_cases fuel : forall r pre last nbits value,
  valid_range r -> 1 <= len pre <= 9 -> Forall cont pre -> cont last ->
  r_ptr r + len pre <= r_end r ->
  nbits = 7 * len pre -> value = u64 (uval pre) ->
  10 - len pre < Z.of_nat fuel ->
  let L := slice (r_mem r) (r_ptr r + len pre) (r_end r) in
  (exists c t rest, L = c ++ t :: rest /\ Forall cont c /\ 0 <= t < 128 /\ len pre + len c <= 9 /\
     dec_loop fuel r last (len pre) nbits value =
       Ok (LoopEnd t (len pre + len c + 1) (7 * (len pre + len c)) (u64 (uval (pre ++ c)))))
  \/ (exists lst off nb v, Forall cont L /\ cont lst /\
       dec_loop fuel r last (len pre) nbits value = Ok (LoopEnd lst off nb v))
  \/ (exists c rest, L = c ++ rest /\ Forall cont c /\ len pre + len c = 10 /\
       dec_loop fuel r last (len pre) nbits value = Ok TooMany).
Proof.
  induction fuel as [|fuel IH]; intros r pre last nbits value HV Hlen Hpre Hlast Hptr Hn Hv Hf L.
  { lia. }
  assert (HV' := HV). destruct HV' as (V1 & V2 & V3).
  cbn [dec_loop].
  destruct (Z.ltb_spec (r_ptr r + len pre) (r_end r)) as [Hlt|Hge].
  2:{ right; left. exists last, (len pre), nbits, value.
      subst L. rewrite slice_nil by lia. auto. }
  destruct (rd_in (r_mem r) (r_ptr r + len pre)) as [b Hb]; [lia|].
  rewrite Hb. cbn [bind].
  assert (is_byte b) as Hbb.
  { apply rd_ok in Hb. destruct Hb as [_ Hb]. apply nth_error_In in Hb.
    rewrite Forall_forall in V3. auto. }
  subst L. rewrite (slice_cons _ _ _ _ Hb Hlt).
  rewrite land_80 by assumption.
  destruct (Z.ltb_spec b 128) as [Hsm|Hbig].
  - left. exists [], b, (slice (r_mem r) (r_ptr r + len pre + 1) (r_end r)).
    rewrite app_nil_r. change (len (@nil Z)) with 0. unfold is_byte in Hbb.
    repeat split; try lia; auto.
    rewrite Hn, Hv. do 3 f_equal; lia.
  - assert (cont b) as Hcb by (unfold cont, is_byte in *; lia).
    destruct (Z.leb_spec (nbits + 7) 64) as [Hle|Hgt].
    + assert (len (pre ++ [b]) = len pre + 1) as El by (rewrite len_app; reflexivity).
      specialize (IH r (pre ++ [b]) b (nbits + 7)
                     (Z.lor (u64 (Z.shiftl value 7)) (Z.land b 0x7f)) HV).
      rewrite El in IH.
      rewrite (Z.add_assoc (r_ptr r)) in IH.
      destruct IH as [(c & t & rest & E & Hc & Ht & Hl & R)|[(lst & off & nb & v & Hc & Hl & R)|(c & rest & E & Hc & Hl & R)]].
      * lia.
      * apply Forall_app. auto.
      * assumption.
      * lia.
      * lia.
      * subst value. rewrite land_7f, u64_push by lia.
        rewrite u64_u64_push, uval_snoc. reflexivity.
      * lia.
      * left. exists (b :: c), t, rest. rewrite len_cons.
        rewrite E. repeat split; try lia.
        -- constructor; auto.
        -- rewrite R. rewrite <- app_assoc. cbn [app]. do 3 f_equal; lia.
      * right; left. exists lst, off, nb, v. repeat split; auto; apply Hl.
      * right; right. exists (b :: c), rest. rewrite E, len_cons. repeat split; auto. lia.
    + right; right. exists [b], (slice (r_mem r) (r_ptr r + len pre + 1) (r_end r)).
      repeat split; auto. change (len [b]) with 1. lia.
Qed.

Lemma u64_small z : 0 <= z < 2^64 -> u64 z = z.
Proof. apply u64_id. Qed.

Lemma one_shl32_1 : one_shl32 1 = Ok 2.
Proof. reflexivity. Qed.

Lemma msc_check b : cont b -> (Z.land b (Z.lnot (2 - 1)) =? 0x80) = (b <? 130).
Proof.
  intros H. apply eqb_prop.
  assert (forall b, is_byte b ->
    implb (128 <=? b) (eqb (Z.land b (Z.lnot (2 - 1)) =? 0x80) (b <? 130)) = true) as E.
  { apply byte_enum. reflexivity. }
  unfold cont in H. specialize (E b ltac:(unfold is_byte; lia)).
  destruct (128 <=? b) eqn:?; [exact E|lia].
Qed.

Lemma msc_check_neg b : cont b -> 64 <= b mod 128 -> (Z.lor b (2 - 1) =? 0xff) = (254 <=? b).
Proof.
  intros H H1. apply eqb_prop.
  assert (forall b, is_byte b ->
    implb (128 <=? b) (eqb (Z.lor b (2 - 1) =? 0xff) (254 <=? b)) = true) as E.
  { apply byte_enum. reflexivity. }
  unfold cont in H. specialize (E b ltac:(unfold is_byte; lia)).
  destruct (128 <=? b) eqn:?; [exact E|lia].
Qed.

(* A common description of the head of both decoders *)
Lemma decode_head {B} (r : range) (kone : Z -> res B)
      (kmany : Z -> Z -> Z -> Z -> Z -> res B) (kfail : res B) :
  valid_range r ->
  let body :=
    if r_ptr r <? r_end r then
      do last <- rd (r_mem r) (r_ptr r);
      if negb (Z.land last 0x80 =? 0) then
        let msc := last in
        do e <- dec_loop 11 r last 1 7 (Z.land last 0x7f);
        match e with
        | TooMany => kfail
        | LoopEnd last off nbits value =>
            if Z.land last 0x80 =? 0 then kmany msc last off nbits value else kfail
        end
      else kone last
    else kfail in
  (exists t rest, content r = t :: rest /\ 0 <= t < 128 /\ body = kone t) \/
  (exists m c t rest, content r = m :: c ++ t :: rest /\ cont m /\ Forall cont c /\
     0 <= t < 128 /\ len c <= 8 /\
     body = kmany m t (len c + 2) (7 * (len c + 1)) (u64 (uval (m :: c)))) \/
  ((forall enc rest, content r = enc ++ rest -> mbn_shape enc -> 10 < len enc) /\ body = kfail).
Proof.
  intros HV body. subst body. assert (HV' := HV). destruct HV' as (V1 & V2 & V3).
  unfold content.
  destruct (Z.ltb_spec (r_ptr r) (r_end r)) as [Hlt|Hge].
  2:{ right; right. split; auto. rewrite slice_nil by lia.
      intros enc rest E (c & t & -> & _). destruct c; discriminate. }
  destruct (rd_in (r_mem r) (r_ptr r)) as [b Hb]; [lia|].
  rewrite Hb. cbn [bind].
  assert (is_byte b) as Hbb.
  { apply rd_ok in Hb. destruct Hb as [_ Hb]. apply nth_error_In in Hb.
    rewrite Forall_forall in V3. auto. }
  rewrite (slice_cons _ _ _ _ Hb Hlt).
  rewrite land_80 by assumption. unfold is_byte in Hbb.
  destruct (Z.ltb_spec b 128) as [Hsm|Hbig]; cbn [negb].
  { left. exists b, (slice (r_mem r) (r_ptr r + 1) (r_end r)). repeat split; auto; lia. }
  right. assert (cont b) as Hc by (unfold cont; lia).
  assert (Z.land b 127 = u64 (uval [b])) as Ev.
  { rewrite land_7f. unfold uval. cbn [fold_left]. unfold u64. lia. }
  destruct (dec_loop_cases 11 r [b] b 7 (Z.land b 127)) as
    [(c & t & rest & E & Fc & Ht & Hl & R)|[(lst & off & nb & v & Fc & Hl & R)|(c & rest & E & Fc & Hl & R)]];
    auto; change (len [b]) with 1 in *; try lia.
  - left. rewrite R. cbn [bind]. rewrite land_80 by (unfold is_byte; lia).
    replace (t <? 128) with true by lia.
    exists b, c, t, rest. rewrite E. repeat split; try apply Hc; try lia; auto.
    cbn [app]. f_equal; lia.
  - right. rewrite R. cbn [bind]. rewrite land_80 by (unfold is_byte, cont in *; lia).
    unfold cont in Hl. replace (lst <? 128) with false by lia. split; auto.
    intros enc rest E S. exfalso. eapply all_cont_no_shape; [|exact E|exact S].
    constructor; auto.
  - right. rewrite R. cbn [bind]. split; auto.
    intros enc rest' E' S.
    assert (len (b :: c) < len enc) as H.
    { apply (shape_long (b :: c) rest enc rest'); auto. cbn [app]. rewrite <- E. exact E'. }
    rewrite len_cons in H. lia.
Qed.

Lemma content_len r enc rest : valid_range r -> content r = enc ++ rest ->
  r_ptr r + len enc <= r_end r.
Proof.
  intros (V1 & V2 & V3) E. unfold content in E.
  assert (len (slice (r_mem r) (r_ptr r) (r_end r)) = r_end r - r_ptr r) by (apply slice_len; lia).
  rewrite E, len_app in H. pose proof (len_nonneg rest). lia.
Qed.

(* ---------- unsigned decode ---------- *)

Lemma store_eq {A} (out : option A) v : store out v = option_map (fun _ => v) out.
Proof. destruct out; reflexivity. Qed.

Lemma uval_many m c t : cont m -> Forall cont c -> 0 <= t < 128 ->
  uval (m :: c ++ [t]) = uval (m :: c) * 128 + t.
Proof.
  intros. change (m :: c ++ [t]) with ((m :: c) ++ [t]). rewrite uval_snoc. lia.
Qed.

Lemma shape_many m c t : cont m -> Forall cont c -> 0 <= t < 128 -> mbn_shape (m :: c ++ [t]).
Proof.
  intros. exists (m :: c), t. repeat split; auto; try lia.
Qed.

(* value of a ten byte encoding *)
Lemma uval_ten m tl : len tl = 9 -> uval (m :: tl) = (m mod 128) * 2^63 + uval tl /\ 0 <= uval tl < 2^63.
Proof.
  intros H. rewrite uval_cons, H. change (128^9) with (2^63). split; auto.
  pose proof (uval_bound tl). pose proof (uval_nonneg tl). rewrite H in *.
  change (128^9) with (2^63) in *. lia.
Qed.

Lemma uval_short l : len l <= 9 -> 0 <= uval l < 2^63.
Proof.
  intros H. pose proof (uval_bound l). pose proof (uval_nonneg l).
  assert (128 ^ len l <= 128 ^ 9) by (apply Z.pow_le_mono_r; pose proof (len_nonneg l); lia).
  change (128^9) with (2^63) in *. lia.
Qed.

Lemma unsigned_decode_accept r out enc v :
  valid_range r -> starts_with (content r) enc -> ubn enc v ->
  unsigned_mbn_decode r out = Ok (true, mkRange (r_mem r) (r_ptr r + len enc) (r_end r),
                                  option_map (fun _ => v) out).
Proof.
  intros HV (rest & E) (S & Hlen & Hu & Hv).
  unfold unsigned_mbn_decode.
  destruct (decode_head r
    (fun last => Ok (true, advance r 1, store out last))
    (fun msc last off nbits value =>
       let value := Z.lor (u64 (Z.shiftl value 7)) last in
       do fits <- (if nbits + 7 <? 64 then Ok true
                   else do s <- one_shl32 (64 - nbits);
                        Ok (Z.land msc (Z.lnot (s - 1)) =? 0x80));
       if fits then Ok (true, advance r off, store out value)
       else Ok (false, r, out))
    (Ok (false, r, out)) HV) as
    [(t & rst & E1 & Ht & R)|[(m & c & t & rst & E1 & Hm & Hc & Ht & Hl & R)|(N & R)]];
  refine (eq_trans R _); clear R; cbv zeta.
  - assert (enc = [] ++ [t]) as ->.
    { apply (shape_unique [] t rst enc rest); auto. cbn. congruence. }
    cbn [app]. change (len [t]) with 1. unfold advance. rewrite store_eq.
    unfold uval in Hu. cbn [app fold_left] in Hu. replace v with t by lia. reflexivity.
  - assert (enc = (m :: c) ++ [t]) as ->.
    { apply (shape_unique (m :: c) t rst enc rest); auto. cbn. congruence. }
    rewrite u64_push, u64_u64_push by lia.
    cbn [app] in Hu. rewrite uval_many in Hu by auto.
    assert (len ((m :: c) ++ [t]) = len c + 2) as El.
    { rewrite len_app, len_cons. change (len [t]) with 1. lia. }
    rewrite El in *.
    assert (0 <= uval (m :: c) * 128 + t < 2^64) as Hb.
    { pose proof (uval_nonneg (m :: c)). lia. }
    rewrite u64_small by assumption. rewrite Hu, store_eq.
    destruct (Z.ltb_spec (7 * (len c + 1) + 7) 64).
    + cbn [bind]. unfold advance. reflexivity.
    + assert (len c = 8) as E8 by lia. rewrite E8.
      change (64 - 7 * (8 + 1)) with 1. rewrite one_shl32_1. cbn [bind].
      rewrite msc_check by assumption.
      destruct (uval_ten m (c ++ [t])) as [U1 U2].
      { rewrite len_app, E8. reflexivity. }
      rewrite uval_many in U1 by auto. unfold cont in Hm.
      replace (m <? 130) with true by lia. unfold advance. reflexivity.
  - specialize (N enc rest E S). lia.
Qed.

Lemma unsigned_decode_reject r out :
  valid_range r -> (forall enc v, starts_with (content r) enc -> ~ ubn enc v) ->
  unsigned_mbn_decode r out = Ok (false, r, out).
Proof.
  intros HV Hno.
  unfold unsigned_mbn_decode.
  destruct (decode_head r
    (fun last => Ok (true, advance r 1, store out last))
    (fun msc last off nbits value =>
       let value := Z.lor (u64 (Z.shiftl value 7)) last in
       do fits <- (if nbits + 7 <? 64 then Ok true
                   else do s <- one_shl32 (64 - nbits);
                        Ok (Z.land msc (Z.lnot (s - 1)) =? 0x80));
       if fits then Ok (true, advance r off, store out value)
       else Ok (false, r, out))
    (Ok (false, r, out)) HV) as
    [(t & rst & E1 & Ht & R)|[(m & c & t & rst & E1 & Hm & Hc & Ht & Hl & R)|(N & R)]];
  refine (eq_trans R _); clear R; cbv zeta; auto.
  - exfalso. apply (Hno [t] t).
    + exists rst. exact E1.
    + split; [exists [], t; repeat split; auto; lia|].
      change (len [t]) with 1. unfold uval. cbn [fold_left]. lia.
  - assert (starts_with (content r) (m :: c ++ [t])) as Hs.
    { exists rst. rewrite E1. cbn. rewrite <- app_assoc. reflexivity. }
    assert (len (m :: c ++ [t]) = len c + 2) as El.
    { rewrite len_cons, len_app. change (len [t]) with 1. lia. }
    assert (~ uval (m :: c ++ [t]) < 2^64) as Hbig.
    { intros Hlt. apply (Hno _ (uval (m :: c ++ [t])) Hs).
      split; [apply shape_many; auto|]. rewrite El. lia. }
    assert (len c = 8) as E8.
    { destruct (Z.eq_dec (len c) 8) as [e|n]; auto. exfalso. apply Hbig.
      pose proof (uval_short (m :: c ++ [t])). lia. }
    rewrite E8.
    change (7 * (8 + 1) + 7 <? 64) with false. cbn iota.
    change (64 - 7 * (8 + 1)) with 1. rewrite one_shl32_1. cbn [bind].
    rewrite msc_check by assumption.
    destruct (uval_ten m (c ++ [t])) as [U1 U2].
    { rewrite len_app, E8. reflexivity. }
    unfold cont in Hm.
    replace (m <? 130) with false by lia. reflexivity.
Qed.
