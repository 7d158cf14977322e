(* Proofs about the datapack model: signed decoder, sizes, encoders *)
From Coq Require Import ZifyBool.
From Verif Require Import Base DatapackModel DatapackSpec DatapackProofs.
Ltac Zify.zify_post_hook ::= Z.div_mod_to_equations.

(* ---------- signed decode ---------- *)

Lemma lnot_pow k : Z.lnot (2^k - 1) = - 2^k.
Proof. pose proof (Z.add_lnot_diag (2^k - 1)). lia. Qed.

(* sign extension of an n-bit negative number *)
Lemma sign_extend v k : 0 < k <= 63 -> 0 <= v < 2^k -> 
  s64 (Z.lor v (u64 (- 2^k))) = v - 2^k \/ v < 2^(k-1).
Proof.
  intros Hk Hv. destruct (Z.ltb_spec v (2^(k-1))); [right; assumption|left].
  assert (2^k <= 2^63) by (apply Z.pow_le_mono_r; lia).
  assert (0 < 2^k) by (apply Z.pow_pos_nonneg; lia).
  assert (2^64 = 2^(64-k) * 2^k) as E64 by (rewrite <- Z.pow_add_r by lia; f_equal; lia).
  assert (u64 (- 2^k) = (2^(64-k) - 1) * 2^k) as ->.
  { unfold u64. symmetry. apply Z.mod_unique_pos with (q := -1); [|lia].
    assert (0 < 2^(64-k)) by (apply Z.pow_pos_nonneg; lia). nia. }
  rewrite Z.lor_comm, lor_shift_add by lia.
  replace ((2^(64-k) - 1) * 2^k + v) with (2^64 + (v - 2^k)) by lia.
  unfold s64. replace (2^64 + (v - 2^k) + 2^63) with ((v - 2^k + 2^63) + 1 * 2^64) by lia.
  rewrite Z.mod_add by lia. rewrite Z.mod_small; lia.
Qed.

Lemma hd_uval_high m tl : 64 <= m mod 128 <-> 2 ^ (7 * len tl + 6) <= uval (m :: tl).
Proof.
  rewrite uval_cons. pose proof (uval_bound tl). pose proof (uval_nonneg tl).
  pose proof (len_nonneg tl).
  rewrite Z.pow_add_r by lia. rewrite <- pow128 by lia. change (2^6) with 64.
  assert (0 < 128 ^ len tl) by (apply Z.pow_pos_nonneg; lia).
  split; intros; nia.
Qed.

Ltac sdecode_head r out d HV R :=
  unfold signed_mbn_decode;
  destruct (decode_head r
    (fun last => Ok (true, advance r 1,
          store out (if negb (Z.land last 0x40 =? 0)
                     then Z.lor last (Z.lxor (-1) 0x7f) else last)))
    (fun msc last off nbits value =>
            let value := Z.lor (u64 (Z.shiftl value 7)) last in
            if negb (Z.land msc 0x40 =? 0) then
              if nbits + 7 <? 64 then
                match out with
                | Some _ =>
                    do s <- one_shl64 d (nbits + 7);
                    do m <- arith64 d (s - 1);
                    Ok (true, advance r off, Some (s64 (Z.lor value (u64 (Z.lnot m)))))
                | None => Ok (true, advance r off, None)
                end
              else
                do s <- one_shl32 (64 - nbits);
                if Z.lor msc (s - 1) =? 0xff then
                  Ok (true, advance r off, store out (s64 value))
                else Ok (false, r, out)
            else
              do fits <- (if nbits + 7 <? 64 then Ok true
                          else do s <- one_shl32 (64 - nbits);
                               Ok (Z.land msc (Z.lnot (s - 1)) =? 0x80));
              if fits then Ok (true, advance r off, store out (s64 value))
              else Ok (false, r, out))
    (Ok (false, r, out)) HV) as
    [(t & rst & E1 & Ht & R)|[(m & c & t & rst & E1 & Hm & Hc & Ht & Hl & R)|(N & R)]].

Lemma single_neg t : 0 <= t < 128 ->
  (if negb (Z.land t 0x40 =? 0) then Z.lor t (Z.lxor (-1) 0x7f) else t) =
  (if 64 <=? t then t - 128 else t).
Proof.
  intros. apply Z.eqb_eq.
  assert (forall b, is_byte b -> implb (b <? 128) ((if negb (Z.land b 0x40 =? 0) then Z.lor b (Z.lxor (-1) 0x7f) else b) =?
  (if 64 <=? b then b - 128 else b)) = true) as E by (apply byte_enum; reflexivity).
  specialize (E t ltac:(unfold is_byte; lia)).
  destruct (t <? 128) eqn:?; [exact E|lia].
Qed.

Lemma sval_one t : 0 <= t < 128 -> sval [t] = if 64 <=? t then t - 128 else t.
Proof.
  intros. unfold sval, uval. cbn [fold_left hd]. change (128 ^ len [t]) with 128.
  replace (t mod 128) with t by lia. destruct (64 <=? t); lia.
Qed.

Lemma len_many (m t : Z) c : len (m :: c ++ [t]) = len c + 2.
Proof. rewrite len_cons, len_app. change (len [t]) with 1. lia. Qed.

(* What the signed decoder does with an encoding of two or more bytes *)
Definition smany (d : dialect) (r : range) (out : option Z) (m : Z) (c : list Z) (t : Z) :=
  let enc := m :: c ++ [t] in
  if (64 <=? m mod 128) && (len enc =? 9) &&
     (match d, out with Strict, Some _ => true | _, _ => false end) then Fail BadShift
  else if (- 2^64 <=? sval enc) && (sval enc <? 2^64) then
    Ok (true, mkRange (r_mem r) (r_ptr r + len enc) (r_end r), option_map (fun _ => s64 (sval enc)) out)
  else Ok (false, r, out).

Lemma s64_add_64 z : s64 (z + 2^64) = s64 z.
Proof. unfold s64. replace (z + 2^64 + 2^63) with (z + 2^63 + 1 * 2^64) by lia.
  rewrite Z.mod_add by lia. reflexivity. Qed.

Lemma s64_u64 z : s64 (u64 z) = s64 z.
Proof. unfold s64, u64. rewrite Zplus_mod_idemp_l. reflexivity. Qed.

Lemma sval_cons m tl : sval (m :: tl) = (m mod 128) * 128 ^ len tl + uval tl -
  (if 64 <=? m mod 128 then 128 * 128 ^ len tl else 0).
Proof.
  unfold sval. cbn [hd]. rewrite uval_cons, len_cons, pow128_succ by apply len_nonneg.
  reflexivity.
Qed.

Lemma signed_many d r (out : option Z) m c t :
  cont m -> Forall cont c -> 0 <= t < 128 -> len c <= 8 ->
  (let value := Z.lor (u64 (Z.shiftl (u64 (uval (m :: c))) 7)) t in
   let nbits := 7 * (len c + 1) in
   let off := len c + 2 in
            if negb (Z.land m 0x40 =? 0) then
              if nbits + 7 <? 64 then
                match out with
                | Some _ =>
                    do s <- one_shl64 d (nbits + 7);
                    do m <- arith64 d (s - 1);
                    Ok (true, advance r off, Some (s64 (Z.lor value (u64 (Z.lnot m)))))
                | None => Ok (true, advance r off, None)
                end
              else
                do s <- one_shl32 (64 - nbits);
                if Z.lor m (s - 1) =? 0xff then
                  Ok (true, advance r off, store out (s64 value))
                else Ok (false, r, out)
            else
              do fits <- (if nbits + 7 <? 64 then Ok true
                          else do s <- one_shl32 (64 - nbits);
                               Ok (Z.land m (Z.lnot (s - 1)) =? 0x80));
              if fits then Ok (true, advance r off, store out (s64 value))
              else Ok (false, r, out))
  = smany d r out m c t.
Proof.
  intros Hm Hc Ht Hl. cbv zeta. unfold smany. cbv zeta. rewrite len_many.
  rewrite u64_push, u64_u64_push by lia.
  rewrite <- uval_many by assumption.
  set (tl := c ++ [t]).
  assert (len tl = len c + 1) as Etl by (unfold tl; rewrite len_app; reflexivity).
  pose proof (len_nonneg c) as Hc0.
  unfold advance. rewrite !store_eq.
  rewrite land_40 by (unfold is_byte, cont in *; lia).
  replace (negb (m mod 128 <? 64)) with (64 <=? m mod 128) by lia.
  destruct (Z.ltb_spec (7 * (len c + 1) + 7) 64) as [Hs|Hs].
  - (* at most 9 bytes *)
    assert (0 <= uval (m :: tl) < 2^(7 * (len c + 2))) as Hub.
    { pose proof (uval_nonneg (m :: tl)). pose proof (uval_bound (m :: tl)).
      rewrite len_cons, Etl in *. rewrite pow128 in * by lia.
      replace (1 + (len c + 1)) with (len c + 2) in * by lia. lia. }
    assert (2^(7 * (len c + 2)) <= 2^63) as H63 by (apply Z.pow_le_mono_r; lia).
    pose proof (hd_uval_high m tl) as Hhi. rewrite Etl in Hhi.
    assert (sval (m :: tl) = uval (m :: tl) - (if 64 <=? m mod 128 then 2^(7*(len c + 2)) else 0)) as Esv.
    { unfold sval. cbn [hd]. rewrite len_cons, Etl, pow128 by lia.
      replace (1 + (len c + 1)) with (len c + 2) by lia. reflexivity. }
    replace (7 * (len c + 1) + 7) with (7 * (len c + 2)) by lia.
    destruct (Z.leb_spec 64 (m mod 128)) as [Hneg|Hpos].
    + (* negative *)
      replace ((-2^64 <=? sval (m :: tl)) && (sval (m :: tl) <? 2^64)) with true by lia.
      destruct out as [o|]; cbn [option_map andb].
      * assert (s64 (Z.lor (u64 (uval (m :: tl))) (u64 (- 2^(7 * (len c + 2))))) =
                s64 (sval (m :: tl))) as Eres.
        { rewrite u64_small by lia.
          destruct (sign_extend (uval (m :: tl)) (7 * (len c + 2))) as [->|H]; try lia.
          - rewrite Esv. rewrite s64_id; auto. unfold in_s64. lia.
          - exfalso. apply Hhi in Hneg.
            replace (7 * (len c + 2) - 1) with (7 * (len c + 1) + 6) in H by lia. lia. }
        destruct (Z.eqb_spec (len c + 2) 9) as [E9|E9].
        -- rewrite E9 in *. change (7 * 9) with 63 in *.
           destruct d; cbn [andb]; [reflexivity|].
           change (one_shl64 Wrap 63) with (@Ok Z (- 2^63)). cbn [bind].
           change (arith64 Wrap (- 2^63 - 1)) with (@Ok Z (2^63 - 1)). cbn [bind].
           rewrite lnot_pow, Eres. reflexivity.
        -- cbn [andb].
           assert (0 < 2^(7 * (len c + 2)) < 2^63) as Hp.
           { split; [apply Z.pow_pos_nonneg; lia|apply Z.pow_lt_mono_r; lia]. }
           assert (one_shl64 d (7 * (len c + 2)) = Ok (2^(7 * (len c + 2)))) as ->.
           { unfold one_shl64. replace (_ && _) with true by lia. reflexivity. }
           cbn [bind].
           assert (arith64 d (2^(7 * (len c + 2)) - 1) = Ok (2^(7 * (len c + 2)) - 1)) as ->.
           { unfold arith64. destruct d.
             - replace (_ && _) with true by lia. reflexivity.
             - rewrite s64_id; auto. unfold in_s64. lia. }
           cbn [bind]. rewrite lnot_pow, Eres. reflexivity.
      * replace ((len c + 2 =? 9) && match d with Strict | _ => false end) with false
          by (destruct d; destruct (len c + 2 =? 9); reflexivity).
        reflexivity.
    + (* positive *)
      cbn [andb bind].
      replace ((-2^64 <=? sval (m :: tl)) && (sval (m :: tl) <? 2^64)) with true by lia.
      rewrite u64_small by lia. rewrite Esv, Z.sub_0_r. reflexivity.
  - (* ten bytes *)
    assert (len c = 8) as E8 by lia. rewrite E8 in *.
    change (64 - 7 * (8 + 1)) with 1. rewrite one_shl32_1. cbn [bind].
    change (8 + 2 =? 9) with false. rewrite andb_false_r. cbn [andb].
    destruct (uval_ten m tl) as [U1 U2]; [lia|].
    assert (sval (m :: tl) = uval (m :: tl) - (if 64 <=? m mod 128 then 2^70 else 0)) as Esv.
    { unfold sval. cbn [hd]. rewrite len_cons, Etl.
      change (128 ^ (1 + (8 + 1))) with (2^70). reflexivity. }
    rewrite Esv, U1, s64_u64.
    destruct (Z.leb_spec 64 (m mod 128)) as [Hneg|Hpos].
    + rewrite msc_check_neg by assumption. unfold cont in Hm.
      replace ((-2^64 <=? m mod 128 * 2^63 + uval tl - 2^70) &&
               (m mod 128 * 2^63 + uval tl - 2^70 <? 2^64)) with (254 <=? m) by lia.
      replace (s64 (m mod 128 * 2^63 + uval tl)) with
        (s64 (m mod 128 * 2^63 + uval tl - 2^70)); [reflexivity|].
      unfold s64.
      replace (m mod 128 * 2 ^ 63 + uval tl + 2 ^ 63) with
        (m mod 128 * 2 ^ 63 + uval tl - 2 ^ 70 + 2 ^ 63 + 64 * 2^64) by lia.
      rewrite Z.mod_add by lia. reflexivity.
    + rewrite msc_check by assumption. unfold cont in Hm. rewrite Z.sub_0_r.
      replace ((-2^64 <=? m mod 128 * 2^63 + uval tl) &&
               (m mod 128 * 2^63 + uval tl <? 2^64)) with (m <? 130) by lia.
      reflexivity.
Qed.

Lemma signed_decode_spec d r out : valid_range r ->
  (exists t rst, content r = t :: rst /\ 0 <= t < 128 /\
     signed_mbn_decode d r out =
     Ok (true, mkRange (r_mem r) (r_ptr r + 1) (r_end r), option_map (fun _ => sval [t]) out)) \/
  (exists m c t rst, content r = m :: c ++ t :: rst /\ cont m /\ Forall cont c /\ 0 <= t < 128 /\
     len c <= 8 /\ signed_mbn_decode d r out = smany d r out m c t) \/
  ((forall enc rest, content r = enc ++ rest -> mbn_shape enc -> 10 < len enc) /\
   signed_mbn_decode d r out = Ok (false, r, out)).
Proof.
  intros HV. sdecode_head r out d HV R.
  - left. exists t, rst. repeat split; auto; try lia. refine (eq_trans R _).
    rewrite single_neg, <- sval_one by assumption. rewrite store_eq. reflexivity.
  - right; left. exists m, c, t, rst. repeat split; auto; try apply Hm; try lia.
    refine (eq_trans R _). exact (signed_many d r out m c t Hm Hc Ht Hl).
  - right; right. split; auto.
Qed.

Lemma sval_one_range t : 0 <= t < 128 -> -64 <= sval [t] < 64.
Proof. intros. rewrite sval_one by assumption. destruct (Z.leb_spec 64 t); lia. Qed.

Lemma signed_wrap_accept r out enc :
  valid_range r -> starts_with (content r) enc -> wide enc ->
  signed_mbn_decode Wrap r out =
  Ok (true, mkRange (r_mem r) (r_ptr r + len enc) (r_end r), option_map (fun _ => s64 (sval enc)) out).
Proof.
  intros HV (rest & E) (S & Hlen & Hw).
  destruct (signed_decode_spec Wrap r out HV) as
    [(t & rst & E1 & Ht & R)|[(m & c & t & rst & E1 & Hm & Hc & Ht & Hl & R)|(N & R)]]; rewrite R.
  - assert (enc = [] ++ [t]) as ->.
    { apply (shape_unique [] t rst enc rest); auto. cbn. congruence. }
    cbn [app]. change (len [t]) with 1. pose proof (sval_one_range t Ht).
    rewrite s64_id; auto. unfold in_s64. lia.
  - assert (enc = (m :: c) ++ [t]) as ->.
    { apply (shape_unique (m :: c) t rst enc rest); auto. cbn. congruence. }
    cbn [app] in *. unfold smany. rewrite andb_false_r.
    replace ((-2^64 <=? sval (m :: c ++ [t])) && (sval (m :: c ++ [t]) <? 2^64)) with true by lia.
    reflexivity.
  - specialize (N enc rest E S). lia.
Qed.

Lemma signed_wrap_reject r out :
  valid_range r -> (forall enc, starts_with (content r) enc -> ~ wide enc) ->
  signed_mbn_decode Wrap r out = Ok (false, r, out).
Proof.
  intros HV Hno.
  destruct (signed_decode_spec Wrap r out HV) as
    [(t & rst & E1 & Ht & R)|[(m & c & t & rst & E1 & Hm & Hc & Ht & Hl & R)|(N & R)]]; rewrite R; auto.
  - exfalso. apply (Hno [t]); [exists rst; exact E1|].
    pose proof (sval_one_range t Ht).
    split; [exists [], t; repeat split; auto; lia|]. change (len [t]) with 1. lia.
  - unfold smany. rewrite andb_false_r.
    destruct ((-2^64 <=? sval (m :: c ++ [t])) && (sval (m :: c ++ [t]) <? 2^64)) eqn:W; auto.
    exfalso. apply (Hno (m :: c ++ [t])).
    + exists rst. rewrite E1. cbn. rewrite <- app_assoc. reflexivity.
    + split; [apply shape_many; auto|]. rewrite len_many. lia.
Qed.

Lemma signed_strict_ub r o enc :
  valid_range r -> starts_with (content r) enc -> ub_form enc ->
  signed_mbn_decode Strict r (Some o) = Fail BadShift.
Proof.
  intros HV (rest & E) (S & Hlen & Hneg).
  destruct (signed_decode_spec Strict r (Some o) HV) as
    [(t & rst & E1 & Ht & R)|[(m & c & t & rst & E1 & Hm & Hc & Ht & Hl & R)|(N & R)]]; rewrite R.
  - assert (enc = [] ++ [t]) as ->.
    { apply (shape_unique [] t rst enc rest); auto. cbn. congruence. }
    cbn in Hlen. lia.
  - assert (enc = (m :: c) ++ [t]) as ->.
    { apply (shape_unique (m :: c) t rst enc rest); auto. cbn. congruence. }
    cbn [app hd] in *. unfold smany. rewrite Hlen.
    replace (64 <=? m mod 128) with true by lia. reflexivity.
  - specialize (N enc rest E S). lia.
Qed.

Lemma signed_strict_eq r out :
  valid_range r ->
  (out = None \/ forall enc, starts_with (content r) enc -> ~ ub_form enc) ->
  signed_mbn_decode Strict r out = signed_mbn_decode Wrap r out.
Proof.
  intros HV Hno.
  destruct (signed_decode_spec Strict r out HV) as
    [(t & rst & E1 & Ht & R)|[(m & c & t & rst & E1 & Hm & Hc & Ht & Hl & R)|(N & R)]]; rewrite R; clear R;
  destruct (signed_decode_spec Wrap r out HV) as
    [(t' & rst' & E1' & Ht' & R)|[(m' & c' & t' & rst' & E1' & Hm' & Hc' & Ht' & Hl' & R)|(N' & R)]]; rewrite R; clear R;
  auto.
  - rewrite E1 in E1'. inversion E1'; subst. reflexivity.
  - unfold cont in *. rewrite E1 in E1'. inversion E1'. lia.
  - specialize (N' [t] rst E1). cbn in N'.
    assert (10 < len [t]) as H; [apply N'; exists [], t; repeat split; auto; lia|]. cbn in H. lia.
  - unfold cont in *. rewrite E1 in E1'. inversion E1'. lia.
  - assert ((m' :: c') ++ [t'] = (m :: c) ++ [t]) as Eq.
    { apply (shape_unique (m :: c) t rst _ rst'); auto.
      - cbn. rewrite <- app_assoc. cbn. congruence.
      - apply shape_many; auto. }
    apply app_inj_tail in Eq. destruct Eq as [Eq ->]. inversion Eq; subst.
    unfold smany. rewrite (andb_false_r (_ && _)).
    destruct ((64 <=? m mod 128) && (len (m :: c ++ [t]) =? 9) &&
      match out with Some _ => true | None => false end) eqn:W; auto.
    exfalso. destruct out; [|rewrite andb_false_r in W; discriminate].
    destruct Hno as [Hno|Hno]; [discriminate|].
    apply (Hno (m :: c ++ [t])).
    + exists rst. rewrite E1. cbn. rewrite <- app_assoc. reflexivity.
    + split; [apply shape_many; auto|]. cbn [hd]. lia.
  - assert (10 < len (m :: c ++ [t])) as H.
    { apply (N' _ rst); [|apply shape_many; auto]. rewrite E1. cbn. rewrite <- app_assoc. reflexivity. }
    rewrite len_many in H. lia.
  - specialize (N [t'] rst' E1').
    assert (10 < len [t']) as H; [apply N; exists [], t'; repeat split; auto; lia|]. cbn in H. lia.
  - assert (10 < len (m' :: c' ++ [t'])) as H.
    { apply (N _ rst'); [|apply shape_many; auto]. rewrite E1'. cbn. rewrite <- app_assoc. reflexivity. }
    rewrite len_many in H. lia.
Qed.

(* ---------- sizes ---------- *)

Lemma pow128_pos n : 0 <= n -> 0 < 128 ^ n.
Proof. intros. apply Z.pow_pos_nonneg; lia. Qed.

Lemma div_lt_pow v n : 0 <= v -> 0 <= n -> (v / 128 < 128 ^ n <-> v < 128 ^ (1 + n)).
Proof. intros. rewrite pow128_succ by lia. lia. Qed.

Lemma usize_loop_spec f : forall v n, 0 <= v < 128 ^ Z.of_nat f ->
  exists k, usize_loop (S f) v n = Ok (n + k) /\ 0 <= k /\ v < 128 ^ k /\ (k = 0 \/ 128 ^ (k - 1) <= v).
Proof.
  induction f; intros v n Hv.
  - cbn [usize_loop]. change (128 ^ Z.of_nat 0) with 1 in Hv. replace v with 0 by lia.
    exists 0. change (128 ^ 0) with 1. repeat split; try lia. cbn. f_equal. lia.
  - cbn [usize_loop]. destruct (Z.eqb_spec v 0) as [->|Hnz].
    + exists 0. change (128^0) with 1. repeat split; try lia. f_equal. lia.
    + destruct (IHf (Z.shiftr v 7) (n + 1)) as (k & E & K0 & K1 & K2).
      { rewrite shiftr7. replace (Z.of_nat (S f)) with (1 + Z.of_nat f) in Hv by lia.
        rewrite pow128_succ in Hv by lia. lia. }
      cbn [usize_loop] in E. rewrite E. exists (1 + k). rewrite shiftr7 in *.
      rewrite pow128_succ by lia. repeat split; try lia. { f_equal. lia. }
      right. replace (1 + k - 1) with k by lia. destruct K2 as [->|K2].
      * change (128^0) with 1. lia.
      * destruct (Z.eq_dec k 0) as [->|]; [change (128 ^ 0) with 1; lia|].
        replace k with (1 + (k - 1)) by lia. rewrite pow128_succ by lia. lia.
Qed.

Lemma unsigned_size_spec v : in_u64 v ->
  exists n, unsigned_mbn_size v = Ok n /\ least_size (fits_u v) n /\ n <= 10.
Proof.
  unfold in_u64. intros Hv. unfold unsigned_mbn_size. rewrite shiftr7.
  destruct (usize_loop_spec 10 (v / 128) 1) as (k & E & K0 & K1 & K2).
  { change (128 ^ Z.of_nat 10) with (2^70). lia. }
  exists (1 + k). split; [exact E|].
  rewrite div_lt_pow in K1 by lia.
  assert (k <= 9) as K9.
  { destruct (Z.leb_spec k 9) as [|H]; auto. exfalso.
    destruct K2 as [->|K2]; [lia|].
    assert (128 ^ 9 <= 128 ^ (k - 1)) by (apply Z.pow_le_mono_r; lia).
    change (128^9) with (2^63) in *. lia. }
  split; [|lia]. unfold least_size, fits_u. split; [lia|]. split.
  - rewrite <- pow128 by lia. lia.
  - intros m Hm. rewrite <- pow128 by lia.
    destruct K2 as [->|K2]; [lia|]. destruct (Z.eq_dec k 0) as [->|]; [lia|].
    assert (128 ^ m <= 128 ^ k) by (apply Z.pow_le_mono_r; lia).
    assert (128 ^ k = 128 * 128 ^ (k - 1)) by (rewrite <- pow128_succ by lia; f_equal; lia). lia.
Qed.

Lemma ssize_pos_spec f : forall v msc n, 0 <= v < 128 ^ Z.of_nat f -> 0 <= msc < 128 ->
  exists k m, ssize_pos (S f) v msc n = Ok (m, n + k) /\ 0 <= k /\ 0 <= m < 128 /\
    m * 128 ^ k <= v * 128 + msc < (m + 1) * 128 ^ k /\ (k = 0 \/ 0 < m).
Proof.
  induction f; intros v msc n Hv Hmsc.
  - cbn [ssize_pos]. change (128 ^ Z.of_nat 0) with 1 in Hv. replace v with 0 by lia.
    exists 0, msc. change (128 ^ 0) with 1. repeat split; try lia. cbn. do 2 f_equal. lia.
  - cbn [ssize_pos]. destruct (Z.eqb_spec v 0) as [->|Hnz].
    + exists 0, msc. change (128^0) with 1. repeat split; try lia. do 2 f_equal. lia.
    + destruct (IHf (Z.shiftr v 7) (Z.land v 127) (n + 1)) as (k & m & E & K0 & M & K1 & K2).
      { rewrite shiftr7. replace (Z.of_nat (S f)) with (1 + Z.of_nat f) in Hv by lia.
        rewrite pow128_succ in Hv by lia. lia. }
      { rewrite land_7f. lia. }
      cbn [ssize_pos] in E. rewrite E. exists (1 + k), m. rewrite shiftr7, land_7f in *.
      rewrite pow128_succ by lia. repeat split; try lia.
      { do 2 f_equal. lia. }
      right. destruct K2 as [->|]; auto. change (128^0) with 1 in *. lia.
Qed.

Lemma ssize_neg_pos f : forall v msc n, 0 <= msc < 128 ->
  ssize_neg f v msc n =
  match ssize_pos f (-1 - v) (127 - msc) n with
  | Ok (m, k) => Ok (127 - m, k)
  | Fail e => Fail e
  end.
Proof.
  induction f; intros v msc n Hm; cbn [ssize_neg ssize_pos]; auto.
  destruct (Z.eqb_spec v (-1)) as [->|Hnz].
  - change (-1 - -1 =? 0) with true. cbn iota. do 2 f_equal. lia.
  - replace (-1 - v =? 0) with false by lia.
    rewrite IHf by (rewrite land_7f; lia).
    rewrite !shiftr7, !land_7f.
    replace (-1 - v / 128) with ((-1 - v) / 128) by lia.
    replace (127 - v mod 128) with ((-1 - v) mod 128) by lia. reflexivity.
Qed.

Lemma fits_s_lnot v n : fits_s v n <-> fits_s (-1 - v) n.
Proof. unfold fits_s. lia. Qed.

Lemma pow_half n : 0 <= n -> 2 ^ (7 * (1 + n) - 1) = 64 * 128 ^ n.
Proof.
  intros. rewrite pow128 by lia. replace (7 * (1 + n) - 1) with (6 + 7 * n) by lia.
  rewrite Z.pow_add_r by lia. reflexivity.
Qed.

Lemma ssize_core v k m : 0 <= v < 2^63 -> 0 <= k -> 0 <= m < 128 ->
  m * 128 ^ k <= v < (m + 1) * 128 ^ k -> (k = 0 \/ 0 < m) ->
  let n := if m <? 64 then 1 + k else 1 + k + 1 in
  least_size (fits_s v) n /\ n <= 10.
Proof.
  intros Hv Hk Hm Hb Hn n.
  pose proof (pow128_pos k Hk) as Hp.
  assert (forall j, 1 <= j <= k -> ~ fits_s v j) as Hless.
  { intros j Hj. unfold fits_s. replace j with (1 + (j - 1)) by lia. rewrite pow_half by lia.
    assert (128 ^ (j - 1) <= 128 ^ (k - 1)) by (apply Z.pow_le_mono_r; lia).
    assert (128 ^ k = 128 * 128 ^ (k - 1)) by (rewrite <- pow128_succ by lia; f_equal; lia).
    assert (0 < 128 ^ (k - 1)) by (apply pow128_pos; lia).
    destruct Hn as [->|Hn]; [lia|]. nia. }
  assert (m < 64 -> k <= 9) as Hk9.
  { intros. destruct (Z.leb_spec k 9); auto. exfalso.
    assert (128^10 <= 128^k) by (apply Z.pow_le_mono_r; lia). 
    change (128^10) with (2^70) in *. nia. }
  assert (64 <= m -> k <= 8) as Hk8.
  { intros. destruct (Z.leb_spec k 8); auto. exfalso.
    assert (128^9 <= 128^k) by (apply Z.pow_le_mono_r; lia). 
    change (128^9) with (2^63) in *. nia. }
  subst n. destruct (Z.ltb_spec m 64) as [H|H].
  - split; [|lia]. split; [lia|]. split.
    + unfold fits_s. rewrite pow_half by lia. nia.
    + intros j Hj. apply Hless. lia.
  - split; [|lia]. split; [lia|]. split.
    + unfold fits_s. replace (1 + k + 1) with (1 + (1 + k)) by lia. rewrite pow_half by lia.
      rewrite pow128_succ by lia. nia.
    + intros j Hj. destruct (Z.eq_dec j (1 + k)) as [->|]; [|apply Hless; lia].
      unfold fits_s. rewrite pow_half by lia. nia.
Qed.

Lemma land_40' m : 0 <= m < 128 -> (Z.land m 0x40 =? 0) = (m <? 64).
Proof. intros. rewrite land_40 by (unfold is_byte; lia). f_equal. lia. Qed.

Lemma signed_size_spec v : in_s64 v ->
  exists n, signed_mbn_size v = Ok n /\ least_size (fits_s v) n /\ n <= 10.
Proof.
  unfold in_s64. intros Hv. unfold signed_mbn_size. rewrite shiftr7, land_7f.
  destruct (Z.ltb_spec (v / 128) 0) as [Hneg|Hpos].
  - rewrite ssize_neg_pos by lia.
    destruct (ssize_pos_spec 10 (-1 - v / 128) (127 - v mod 128) 1) as (k & m & E & K0 & M & K1 & K2).
    { change (128 ^ Z.of_nat 10) with (2^70). lia. }
    { lia. }
    rewrite E. cbn [bind].
    replace ((-1 - v / 128) * 128 + (127 - v mod 128)) with (-1 - v) in K1 by lia.
    destruct (ssize_core (-1 - v) k m) as [L L10]; auto; try lia.
    exists (if m <? 64 then 1 + k else 1 + k + 1).
    rewrite land_40' by lia. split; [|split; [|lia]].
    + f_equal. destruct (Z.ltb_spec (127 - m) 64), (Z.ltb_spec m 64); lia.
    + destruct L as (L1 & L2 & L3). split; [lia|]. split; [apply fits_s_lnot; exact L2|].
      intros j Hj F. apply (L3 j Hj). apply fits_s_lnot in F. exact F.
  - destruct (ssize_pos_spec 10 (v / 128) (v mod 128) 1) as (k & m & E & K0 & M & K1 & K2).
    { change (128 ^ Z.of_nat 10) with (2^70). lia. }
    { lia. }
    rewrite E. cbn [bind].
    replace ((v / 128) * 128 + (v mod 128)) with v in K1 by lia.
    destruct (ssize_core v k m) as [L L10]; auto; try lia.
    exists (if m <? 64 then 1 + k else 1 + k + 1).
    rewrite land_40' by lia. split; [|split; [exact L|lia]].
    f_equal. destruct (Z.ltb_spec m 64); reflexivity.
Qed.

(* ---------- encoders ---------- *)

(* continuation bytes for the n groups of v *)
Fixpoint groups (n : nat) (v : Z) : list Z :=
  match n with
  | O => []
  | S m => groups m (v / 128) ++ [v mod 128 + 128]
  end.

Lemma groups_length n : forall v, length (groups n v) = n.
Proof. induction n; intros; cbn; auto. rewrite app_length, IHn. cbn. lia. Qed.

Lemma groups_cont n : forall v, Forall cont (groups n v).
Proof.
  induction n; intros; cbn; auto. apply Forall_app. split; auto.
  constructor; auto. unfold cont. lia.
Qed.

Lemma groups_val n : forall v, uval (groups n v) = v mod 128 ^ Z.of_nat n.
Proof.
  induction n; intros; cbn [groups].
  - change (128 ^ Z.of_nat 0) with 1. cbn. lia.
  - rewrite uval_snoc, IHn. replace (Z.of_nat (S n)) with (1 + Z.of_nat n) by lia.
    rewrite pow128_succ by lia. pose proof (pow128_pos (Z.of_nat n) ltac:(lia)).
    rewrite (Z.rem_mul_r v 128) by lia. lia.
Qed.

Lemma upd_mid (pre mid post : list Z) x y :
  upd (pre ++ (mid ++ [x]) ++ post) (length pre + length mid) y = pre ++ mid ++ y :: post.
Proof.
  rewrite upd_app_r by lia. f_equal. rewrite <- app_assoc.
  rewrite upd_app_r by lia. f_equal.
  replace (length pre + length mid - length pre - length mid)%nat with O by lia. reflexivity.
Qed.

Lemma enc_loop_spec n : forall pre mid post v,
  length mid = n ->
  enc_loop n (pre ++ mid ++ post) (len pre) v =
  Ok (pre ++ groups n v ++ post, v / 128 ^ Z.of_nat n).
Proof.
  induction n; intros pre mid post v Hl.
  - destruct mid; [|discriminate]. cbn [enc_loop groups]. change (128 ^ Z.of_nat 0) with 1.
    rewrite Z.div_1_r. reflexivity.
  - destruct (exists_last (l := mid)) as (mid' & x & ->); [intros ->; discriminate|].
    rewrite app_length in Hl. cbn in Hl.
    cbn [enc_loop].
    rewrite wr_in.
    2:{ rewrite !len_app. change (len [x]) with 1. unfold len. lia. }
    cbn [bind].
    replace (Z.to_nat (len pre + Z.of_nat n)) with (length pre + length mid')%nat by (unfold len; lia).
    rewrite upd_mid, u8_lor_80, IHn by lia. cbn [groups]. rewrite shiftr7.
    replace (Z.of_nat (S n)) with (1 + Z.of_nat n) by lia.
    rewrite pow128_succ by lia. rewrite <- app_assoc. cbn [app].
    rewrite Z.div_div by (try lia; apply pow128_pos; lia). reflexivity.
Qed.

Definition enc_bytes (v size : Z) : list Z :=
  groups (Z.to_nat (size - 1)) (v / 128) ++ [v mod 128].

Lemma enc_bytes_len v size : 1 <= size -> len (enc_bytes v size) = size.
Proof. intros. unfold enc_bytes, len. rewrite app_length, groups_length. cbn. lia. Qed.

Lemma enc_bytes_shape v size : mbn_shape (enc_bytes v size).
Proof.
  exists (groups (Z.to_nat (size - 1)) (v / 128)), (v mod 128).
  repeat split; try lia. apply groups_cont.
Qed.

Lemma enc_bytes_val v size : 1 <= size -> uval (enc_bytes v size) = v mod 128 ^ size.
Proof.
  intros. unfold enc_bytes. rewrite uval_snoc, groups_val.
  replace (Z.of_nat (Z.to_nat (size - 1))) with (size - 1) by lia.
  replace size with (1 + (size - 1)) at 2 by lia. rewrite pow128_succ by lia.
  pose proof (pow128_pos (size - 1) ltac:(lia)).
  rewrite (Z.rem_mul_r v 128) by lia. lia.
Qed.

Lemma encode_common pre mid post v size : 1 <= size -> len mid = size ->
  (do buf <- wr (pre ++ mid ++ post) (len pre + (size - 1)) (u8 (Z.land v 0x7f));
   enc_loop (Z.to_nat (size - 1)) buf (len pre) (Z.shiftr v 7)) =
  Ok (pre ++ enc_bytes v size ++ post, v / 128 ^ size).
Proof.
  intros Hs Hm.
  destruct (exists_last (l := mid)) as (mid' & x & ->).
  { intros ->. cbn in Hm. lia. }
  rewrite len_app in Hm. change (len [x]) with 1 in Hm.
  rewrite wr_in.
  2:{ rewrite !len_app. change (len [x]) with 1. pose proof (len_nonneg pre). pose proof (len_nonneg post). lia. }
  cbn [bind].
  replace (Z.to_nat (len pre + (size - 1))) with (length pre + length mid')%nat by (unfold len in *; lia).
  rewrite upd_mid, land_7f, u8_small by lia. rewrite shiftr7.
  rewrite enc_loop_spec by (unfold len in *; lia).
  unfold enc_bytes. rewrite <- app_assoc. cbn [app].
  replace (Z.of_nat (Z.to_nat (size - 1))) with (size - 1) by lia.
  rewrite Z.div_div by (try lia; apply pow128_pos; lia).
  rewrite <- pow128_succ by lia. do 3 f_equal. f_equal. lia.
Qed.

Lemma bind_assoc {A B C} (x : res A) (f : A -> res B) (g : B -> res C) :
  (do y <- (do z <- x; f z); g y) = (do z <- x; do y <- f z; g y).
Proof. destruct x; reflexivity. Qed.

Lemma unsigned_encode2_spec pre mid post v size : 1 <= size -> len mid = size ->
  unsigned_mbn_encode2 (pre ++ mid ++ post) (len pre) v size =
  Ok (pre ++ enc_bytes v size ++ post, size).
Proof.
  intros Hs Hm. unfold unsigned_mbn_encode2. replace (size >? 0) with true by lia.
  rewrite <- bind_assoc. rewrite encode_common by assumption. reflexivity.
Qed.

Lemma groups_minus_one n v : v = -1 -> Forall (fun b => b = 255) (groups n v).
Proof.
  revert v; induction n; intros v ->; cbn [groups]; auto.
  apply Forall_app. split; [apply IHn; reflexivity|]. constructor; auto.
Qed.

Lemma groups_hd n : forall v, hd 0 (groups (S n) v) = (v / 128 ^ Z.of_nat n) mod 128 + 128.
Proof.
  induction n; intros v.
  - cbn [groups app hd]. change (128 ^ Z.of_nat 0) with 1. rewrite Z.div_1_r. reflexivity.
  - change (groups (S (S n)) v) with (groups (S n) (v / 128) ++ [v mod 128 + 128]).
    assert (hd 0 (groups (S n) (v / 128) ++ [v mod 128 + 128]) = hd 0 (groups (S n) (v / 128))) as ->.
    { pose proof (groups_length (S n) (v / 128)). destruct (groups (S n) (v / 128)); [discriminate|reflexivity]. }
    rewrite IHn. rewrite Z.div_div by (try lia; apply pow128_pos; lia).
    rewrite <- pow128_succ by lia. do 4 f_equal. lia.
Qed.

Lemma signed_encode2_spec pre mid post v size : in_s64 v -> 1 <= size <= 10 -> len mid = size ->
  signed_mbn_encode2 (pre ++ mid ++ post) (len pre) v size =
  Ok (pre ++ enc_bytes v size ++ post, size).
Proof.
  intros Hv Hs Hm. unfold signed_mbn_encode2. replace (size >? 0) with true by lia.
  rewrite <- bind_assoc. rewrite encode_common by lia. cbn [bind].
  destruct (Z.ltb_spec (v / 128 ^ size) 0) as [Hneg|]; auto.
  assert (u32 (size * 7) = size * 7) as -> by (apply u32_id; unfold in_u32; lia).
  destruct (Z.gtb_spec (size * 7) 64) as [Hbig|]; auto.
  assert (size = 10) as -> by lia.
  change (one_shl32 (u32 (64 - u32 ((10 - 1) * 7)))) with (@Ok Z 2). cbn [bind].
  assert (v < 0) as Hv0.
  { destruct (Z.ltb_spec v 0); auto. exfalso. change (128^10) with (2^70) in Hneg. lia. }
  assert (enc_bytes v 10 = 255 :: tl (enc_bytes v 10)) as E.
  { unfold enc_bytes. change (Z.to_nat (10 - 1)) with 9%nat.
    pose proof (groups_hd 8 (v / 128)) as Hh. pose proof (groups_length 9 (v / 128)) as Hl.
    destruct (groups 9 (v / 128)) as [|g gs]; [discriminate|]. cbn [app tl hd] in *. f_equal.
    rewrite Hh. rewrite Z.div_div by (try lia; apply pow128_pos; lia).
    change (128 * 128 ^ Z.of_nat 8) with (2^63). unfold in_s64 in Hv.
    replace (v / 2^63) with (-1) by lia. reflexivity. }
  rewrite E. cbn [app].
  assert (rd (pre ++ 255 :: tl (enc_bytes v 10) ++ post) (len pre) = Ok 255) as ->.
  { apply rd_ok. split; [apply len_nonneg|]. unfold len. rewrite Nat2Z.id.
    rewrite nth_error_app2 by lia. rewrite Nat.sub_diag. reflexivity. }
  cbn [bind]. rewrite wr_in.
  2:{ rewrite len_app, len_cons. pose proof (len_nonneg pre).
      pose proof (len_nonneg (tl (enc_bytes v 10) ++ post)). lia. }
  cbn [bind]. unfold len at 1. rewrite Nat2Z.id. rewrite upd_app_r by lia.
  rewrite Nat.sub_diag. reflexivity.
Qed.

Lemma encode_short (f : list Z -> Z -> Z -> Z -> res (list Z * Z)) buf off v size :
  f = unsigned_mbn_encode2 \/ f = signed_mbn_encode2 ->
  1 <= size -> len buf < off + size -> f buf off v size = Fail OobWrite.
Proof.
  intros [->| ->] Hs Hl; unfold unsigned_mbn_encode2, signed_mbn_encode2;
  replace (size >? 0) with true by lia; unfold wr;
  replace (off + (size - 1) <? len buf) with false by lia; rewrite andb_false_r; reflexivity.
Qed.

Lemma sval_enc v size : 1 <= size -> fits_s v size -> sval (enc_bytes v size) = v.
Proof.
  intros Hs Hf. unfold sval. rewrite enc_bytes_val, enc_bytes_len by lia.
  unfold fits_s in Hf.
  assert (128 ^ size = 2 * 2 ^ (7 * size - 1)) as Ep.
  { rewrite pow128 by lia. rewrite <- Z.pow_succ_r by lia. f_equal. lia. }
  assert (2 ^ (7 * size - 1) = 64 * 128 ^ (size - 1)) as Eh.
  { rewrite <- pow_half by lia. f_equal. lia. }
  pose proof (pow128_pos (size - 1) ltac:(lia)) as Hp.
  assert (exists m tl, enc_bytes v size = m :: tl /\ len tl = size - 1) as (m & tl & E & El).
  { pose proof (enc_bytes_len v size Hs). destruct (enc_bytes v size) as [|m tl]; [cbn in *; lia|].
    exists m, tl. rewrite len_cons in *. split; [auto|lia]. }
  pose proof (hd_uval_high m tl) as Hh. rewrite <- E, El, enc_bytes_val in Hh by lia.
  replace (7 * (size - 1) + 6) with (7 * size - 1) in Hh by lia.
  rewrite E. cbn [hd].
  destruct (Z.ltb_spec v 0) as [Hn|Hn].
  - assert (v mod 128 ^ size = v + 128 ^ size) as Em.
    { symmetry. apply Z.mod_unique_pos with (q := -1); lia. }
    destruct (Z.leb_spec 64 (m mod 128)); lia.
  - rewrite (Z.mod_small v) in Hh by lia. rewrite (Z.mod_small v) by lia.
    destruct (Z.leb_spec 64 (m mod 128)); lia.
Qed.
