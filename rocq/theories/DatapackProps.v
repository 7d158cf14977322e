(* Properties C01-C14: MBN and TLV encoding *)
From Verif Require Import Base DatapackModel DatapackSpec DatapackProofs DatapackProofs2 DatapackTlv.
From Coq Require Import ZifyBool.
Ltac Zify.zify_post_hook ::= Z.div_mod_to_equations.

(* ------------------------------------------------------------------ C01 *)
Lemma least_fits v n m : least_size (fits_u v) n -> n <= m -> fits_u v m.
Proof.
  intros (H1 & H2 & _) Hm. unfold fits_u in *.
  assert (2 ^ (7 * n) <= 2 ^ (7 * m)) by (apply Z.pow_le_mono_r; lia). lia.
Qed.
Lemma least_fits_s v n m : least_size (fits_s v) n -> n <= m -> fits_s v m.
Proof.
  intros (H1 & H2 & _) Hm. unfold fits_s in *.
  assert (2 ^ (7 * n - 1) <= 2 ^ (7 * m - 1)) by (apply Z.pow_le_mono_r; lia). lia.
Qed.

Lemma round_trip_u v n size pre mid post : 
  in_u64 v -> unsigned_mbn_size v = Ok n -> n <= size <= 10 -> len mid = size ->
  exists enc,
    unsigned_mbn_encode2 (pre ++ mid ++ post) (len pre) v size = Ok (pre ++ enc ++ post, size) /\
    forall r rest out, valid_range r -> content r = enc ++ rest ->
      unsigned_mbn_decode r out =
      Ok (true, mkRange (r_mem r) (r_ptr r + size) (r_end r), option_map (fun _ => v) out).
Proof.
  intros Hv Hn Hs Hm. destruct (unsigned_size_spec v Hv) as (n' & E & L & _).
  rewrite Hn in E. inversion E; subst n'. pose proof (proj1 L).
  exists (enc_bytes v size). split; [apply unsigned_encode2_spec; lia|].
  intros r rest out HV C.
  pose proof (enc_bytes_ubn v size Hv (least_fits v n size L ltac:(lia)) ltac:(lia)) as U.
  rewrite (unsigned_decode_accept r out _ v HV (ex_intro _ rest C) U).
  rewrite enc_bytes_len by lia. reflexivity.
Qed.

Theorem C01_unsigned_mbn_round_trip : forall v n size pre mid post,
  in_u64 v -> unsigned_mbn_size v = Ok n -> n <= size <= 10 -> len mid = size ->
  exists enc,
    unsigned_mbn_encode2 (pre ++ mid ++ post) (len pre) v size = Ok (pre ++ enc ++ post, size) /\
    forall r rest out, valid_range r -> content r = enc ++ rest ->
      unsigned_mbn_decode r out =
      Ok (true, mkRange (r_mem r) (r_ptr r + size) (r_end r), option_map (fun _ => v) out).
Proof. exact round_trip_u. Qed.
Print Assumptions C01_unsigned_mbn_round_trip.

(* gutil_unsigned_mbn_encode is the case of the size computed by gutil_unsigned_mbn_size,
   which exists for every value and is between 1 and 10 *)
Theorem C01_unsigned_mbn_encode_minimal : forall v, in_u64 v ->
  exists n, unsigned_mbn_size v = Ok n /\ 1 <= n <= 10 /\
    forall buf off, unsigned_mbn_encode buf off v = unsigned_mbn_encode2 buf off v n.
Proof.
  intros v Hv. destruct (unsigned_size_spec v Hv) as (n & E & L & H).
  exists n. split; auto. split; [destruct L; lia|]. intros. unfold unsigned_mbn_encode. rewrite E. reflexivity.
Qed.
Print Assumptions C01_unsigned_mbn_encode_minimal.

Example C01_example :
  unsigned_mbn_size 129 = Ok 2 /\
  unsigned_mbn_encode2 [1;2;3;4;5] 1 129 3 = Ok ([1;128;129;1;5], 3) /\
  unsigned_mbn_decode (mkRange [1;128;129;1;5] 1 5) (Some 0) =
  Ok (true, mkRange [1;128;129;1;5] 4 5, Some 129) /\
  unsigned_mbn_encode [0;0;0;0;0;0;0;0;0;0] 0 (2^64-1) =
    Ok ([129;255;255;255;255;255;255;255;255;127], 10).
Proof. repeat split; reflexivity. Qed.

(* ------------------------------------------------------------------ C02 *)
Theorem C02_unsigned_size_least : forall v, in_u64 v ->
  exists n, unsigned_mbn_size v = Ok n /\ least_size (fits_u v) n /\ n <= 10.
Proof. exact unsigned_size_spec. Qed.
Print Assumptions C02_unsigned_size_least.

Theorem C02_signed_size_least : forall v, in_s64 v ->
  exists n, signed_mbn_size v = Ok n /\ least_size (fits_s v) n /\ n <= 10.
Proof. exact signed_size_spec. Qed.
Print Assumptions C02_signed_size_least.

Lemma encode2_u pre mid post v size : 1 <= size -> len mid = size ->
  exists enc, unsigned_mbn_encode2 (pre ++ mid ++ post) (len pre) v size = Ok (pre ++ enc ++ post, size) /\
    mbn_shape enc /\ len enc = size /\ uval enc = v mod 128 ^ size.
Proof.
  intros. exists (enc_bytes v size). split; [apply unsigned_encode2_spec; auto|].
  split; [apply enc_bytes_shape|]. split; [apply enc_bytes_len; auto|apply enc_bytes_val; auto].
Qed.

(* exactly `size` bytes are written, the rest of the buffer is untouched; the bytes are the
   size least significant groups of the value (all of them if size is at least the minimum) *)
Theorem C02_unsigned_encode_writes : forall pre mid post v size, 1 <= size -> len mid = size ->
  exists enc, unsigned_mbn_encode2 (pre ++ mid ++ post) (len pre) v size = Ok (pre ++ enc ++ post, size) /\
    mbn_shape enc /\ len enc = size /\ uval enc = v mod 128 ^ size.
Proof. exact encode2_u. Qed.
Print Assumptions C02_unsigned_encode_writes.

Lemma encode2_s pre mid post v size : in_s64 v -> 1 <= size <= 10 -> len mid = size ->
  exists enc, signed_mbn_encode2 (pre ++ mid ++ post) (len pre) v size = Ok (pre ++ enc ++ post, size) /\
    mbn_shape enc /\ len enc = size /\ uval enc = v mod 128 ^ size.
Proof.
  intros. exists (enc_bytes v size). split; [apply signed_encode2_spec; auto|].
  split; [apply enc_bytes_shape|]. split; [apply enc_bytes_len; lia|apply enc_bytes_val; lia].
Qed.

Theorem C02_signed_encode_writes : forall pre mid post v size,
  in_s64 v -> 1 <= size <= 10 -> len mid = size ->
  exists enc, signed_mbn_encode2 (pre ++ mid ++ post) (len pre) v size = Ok (pre ++ enc ++ post, size) /\
    mbn_shape enc /\ len enc = size /\ uval enc = v mod 128 ^ size.
Proof. exact encode2_s. Qed.
Print Assumptions C02_signed_encode_writes.

Theorem C02_encode_short_buffer_detected : forall buf off v size,
  1 <= size -> len buf < off + size ->
  unsigned_mbn_encode2 buf off v size = Fail OobWrite /\
  signed_mbn_encode2 buf off v size = Fail OobWrite.
Proof. intros. split; [apply (encode_short unsigned_mbn_encode2)|apply (encode_short signed_mbn_encode2)]; auto. Qed.
Print Assumptions C02_encode_short_buffer_detected.

(* the limit of 10 for signed numbers is needed: a larger size shifts by a negative amount *)
Example C02_signed_encode2_size_11 :
  signed_mbn_encode2 [0;0;0;0;0;0;0;0;0;0;0] 0 (-1) 11 = Fail BadShift.
Proof. reflexivity. Qed.

Example C02_example :
  signed_mbn_size (-65) = Ok 2 /\ signed_mbn_size (-64) = Ok 1 /\ signed_mbn_size 64 = Ok 2 /\
  signed_mbn_size (-2^63) = Ok 10 /\ unsigned_mbn_size (2^63) = Ok 10 /\ unsigned_mbn_size (2^63-1) = Ok 9 /\
  signed_mbn_encode2 [7;0;0;7] 1 (-65) 2 = Ok ([7;255;63;7], 2).
Proof. repeat split; reflexivity. Qed.

(* ------------------------------------------------------------------ C03 *)
Theorem C03_unsigned_decode_accepts : forall r out enc v,
  valid_range r -> starts_with (content r) enc -> ubn enc v ->
  unsigned_mbn_decode r out =
  Ok (true, mkRange (r_mem r) (r_ptr r + len enc) (r_end r), option_map (fun _ => v) out).
Proof. exact unsigned_decode_accept. Qed.
Print Assumptions C03_unsigned_decode_accepts.

Theorem C03_unsigned_decode_rejects : forall r out,
  valid_range r -> (forall enc v, starts_with (content r) enc -> ~ ubn enc v) ->
  unsigned_mbn_decode r out = Ok (false, r, out).
Proof. exact unsigned_decode_reject. Qed.
Print Assumptions C03_unsigned_decode_rejects.

Example C03_example_accept :
  ubn [129; 0] 128 /\ starts_with [129; 0; 7] [129; 0] /\
  valid_range (mkRange [129; 0; 7] 0 3) /\ content (mkRange [129; 0; 7] 0 3) = [129; 0; 7].
Proof.
  repeat split; try reflexivity; try (cbn; lia).
  - exists [129], 0. repeat split; try lia. repeat constructor; lia.
  - exists [7]. reflexivity.
  - repeat constructor; unfold is_byte; lia.
Qed.

(* 2^64 itself is rejected *)
Example C03_example_reject :
  unsigned_mbn_decode (mkRange [130;128;128;128;128;128;128;128;128;0] 0 10) (Some 5) =
  Ok (false, mkRange [130;128;128;128;128;128;128;128;128;0] 0 10, Some 5).
Proof. reflexivity. Qed.

(* ------------------------------------------------------------------ C04 *)
Lemma round_trip_s v n size pre mid post :
  in_s64 v -> signed_mbn_size v = Ok n -> n <= size <= 10 -> len mid = size ->
  exists enc,
    signed_mbn_encode2 (pre ++ mid ++ post) (len pre) v size = Ok (pre ++ enc ++ post, size) /\
    forall r rest out, valid_range r -> content r = enc ++ rest ->
      signed_mbn_decode Wrap r out =
      Ok (true, mkRange (r_mem r) (r_ptr r + size) (r_end r), option_map (fun _ => v) out).
Proof.
  intros Hv Hn Hs Hm. destruct (signed_size_spec v Hv) as (n' & E & L & _).
  rewrite Hn in E. inversion E; subst n'. pose proof (proj1 L).
  pose proof (sval_enc v size ltac:(lia) (least_fits_s v n size L ltac:(lia))) as Sv.
  exists (enc_bytes v size). split; [apply signed_encode2_spec; auto; lia|].
  intros r rest out HV C. unfold in_s64 in Hv.
  assert (wide (enc_bytes v size)) as W.
  { split; [apply enc_bytes_shape|]. rewrite enc_bytes_len by lia. rewrite Sv. lia. }
  rewrite (signed_wrap_accept r out _ HV (ex_intro _ rest C) W).
  rewrite enc_bytes_len, Sv by lia. rewrite s64_id by exact Hv. reflexivity.
Qed.

Theorem C04_signed_mbn_round_trip : forall v n size pre mid post,
  in_s64 v -> signed_mbn_size v = Ok n -> n <= size <= 10 -> len mid = size ->
  exists enc,
    signed_mbn_encode2 (pre ++ mid ++ post) (len pre) v size = Ok (pre ++ enc ++ post, size) /\
    forall r rest out, valid_range r -> content r = enc ++ rest ->
      signed_mbn_decode Wrap r out =
      Ok (true, mkRange (r_mem r) (r_ptr r + size) (r_end r), option_map (fun _ => v) out).
Proof. exact round_trip_s. Qed.
Print Assumptions C04_signed_mbn_round_trip.

Theorem C04_signed_mbn_encode_minimal : forall v, in_s64 v ->
  exists n, signed_mbn_size v = Ok n /\ 1 <= n <= 10 /\
    forall buf off, signed_mbn_encode buf off v = signed_mbn_encode2 buf off v n.
Proof.
  intros v Hv. destruct (signed_size_spec v Hv) as (n & E & L & H).
  exists n. split; auto. split; [destruct L; lia|]. intros. unfold signed_mbn_encode. rewrite E. reflexivity.
Qed.
Print Assumptions C04_signed_mbn_encode_minimal.

Example C04_example :
  signed_mbn_size (-129) = Ok 2 /\
  signed_mbn_encode [0;0;0] 0 (-129) = Ok ([254;127;0], 2) /\
  signed_mbn_decode Wrap (mkRange [254;127;0] 0 3) (Some 7) = Ok (true, mkRange [254;127;0] 2 3, Some (-129)).
Proof. repeat split; reflexivity. Qed.

(* ------------------------------------------------------------------ C05 *)
(* The full statement is false: a ten byte number whose value is 2^63 is accepted and
   delivered as -2^63, and -2^64 is delivered as 0. *)
Theorem C05_signed_decode_overflow_refuted :
  exists r enc v, valid_range r /\ content r = enc /\ mbn_shape enc /\ len enc <= 10 /\
    ~ in_s64 (sval enc) /\
    signed_mbn_decode Wrap r (Some 0) = Ok (true, mkRange (r_mem r) (r_end r) (r_end r), Some v).
Proof.
  exists (mkRange [129;128;128;128;128;128;128;128;128;0] 0 10),
         [129;128;128;128;128;128;128;128;128;0], (-2^63).
  repeat split; try reflexivity; try (cbn; lia).
  - repeat constructor; unfold is_byte; lia.
  - exists [129;128;128;128;128;128;128;128;128], 0. repeat split; try lia. repeat constructor; lia.
  - unfold in_s64. change (sval [129;128;128;128;128;128;128;128;128;0]) with (2^63). lia.
Qed.
Print Assumptions C05_signed_decode_overflow_refuted.

(* What holds (the missing part: values in [2^63,2^64) and [-2^64,-2^63) should be rejected):
   every number that fits is accepted with the right value *)
Lemma signed_accept_fits r out enc v :
  valid_range r -> starts_with (content r) enc -> sbn enc v ->
  signed_mbn_decode Wrap r out =
  Ok (true, mkRange (r_mem r) (r_ptr r + len enc) (r_end r), option_map (fun _ => v) out).
Proof.
  intros HV S (H1 & H2 & <- & H4).
  rewrite (signed_wrap_accept r out enc); auto.
  - rewrite s64_id by assumption. reflexivity.
  - split; auto. unfold in_s64 in H4. lia.
Qed.
Theorem C05_signed_decode_accepts : forall r out enc v,
  valid_range r -> starts_with (content r) enc -> sbn enc v ->
  signed_mbn_decode Wrap r out =
  Ok (true, mkRange (r_mem r) (r_ptr r + len enc) (r_end r), option_map (fun _ => v) out).
Proof. exact signed_accept_fits. Qed.
Print Assumptions C05_signed_decode_accepts.

(* ... and the exact set of accepted sequences: those whose value is in [-2^64, 2^64),
   the value being delivered modulo 2^64. Everything else is rejected. *)
Theorem C05_signed_decode_exact_partial : forall r out, valid_range r ->
  (forall enc, starts_with (content r) enc -> mbn_shape enc -> len enc <= 10 ->
     -2^64 <= sval enc < 2^64 ->
     signed_mbn_decode Wrap r out =
     Ok (true, mkRange (r_mem r) (r_ptr r + len enc) (r_end r), option_map (fun _ => s64 (sval enc)) out)) /\
  ((forall enc, starts_with (content r) enc -> mbn_shape enc -> len enc <= 10 ->
     ~ (-2^64 <= sval enc < 2^64)) ->
   signed_mbn_decode Wrap r out = Ok (false, r, out)).
Proof.
  intros r out HV. split.
  - intros. apply signed_wrap_accept; auto. split; auto.
  - intros H. apply signed_wrap_reject; auto. intros enc S (A & B & C). apply (H enc S A B C).
Qed.
Print Assumptions C05_signed_decode_exact_partial.

Example C05_example : sbn [254; 127] (-129).
Proof.
  repeat split; try reflexivity; try (cbn; lia); try (vm_compute; congruence).
  exists [254], 127. repeat split; try lia. repeat constructor; lia.
Qed.

(* ------------------------------------------------------------------ C06 *)
Lemma decode_frame_u r out : valid_range r ->
  exists ok r' out', unsigned_mbn_decode r out = Ok (ok, r', out') /\
    r_mem r' = r_mem r /\ r_end r' = r_end r /\
    (ok = true -> r_ptr r < r_ptr r' <= r_ptr r + 10 /\ r_ptr r' <= r_end r /\
                  (out = None -> out' = None)) /\
    (ok = false -> r' = r /\ out' = out) /\
    (forall o2, exists o3, unsigned_mbn_decode r o2 = Ok (ok, r', o3)).
Proof.
  intros HV. destruct (ubn_dec r HV) as [(enc & v & rest & E & U)|No].
  - pose proof (unsigned_decode_accept r out enc v HV (ex_intro _ rest E) U) as R.
    exists true. eexists _, _. split; [exact R|]. cbn.
    pose proof (content_len r enc rest HV E). pose proof (mbn_shape_nonempty _ (proj1 U)).
    destruct U as (S & L & U). repeat split; try lia; try discriminate.
    + intros ->. reflexivity.
    + intros o2. exists (option_map (fun _ => v) o2).
      apply unsigned_decode_accept; auto. { exists rest; auto. } split; auto.
  - exists false, r, out. split; [apply unsigned_decode_reject; auto|].
    repeat split; try discriminate. intros o2. exists o2. apply unsigned_decode_reject; auto.
Qed.

Lemma decode_frame_s r out : valid_range r ->
  exists ok r' out', signed_mbn_decode Wrap r out = Ok (ok, r', out') /\
    r_mem r' = r_mem r /\ r_end r' = r_end r /\
    (ok = true -> r_ptr r < r_ptr r' <= r_ptr r + 10 /\ r_ptr r' <= r_end r /\
                  (out = None -> out' = None)) /\
    (ok = false -> r' = r /\ out' = out) /\
    (forall o2, exists o3, signed_mbn_decode Wrap r o2 = Ok (ok, r', o3)).
Proof.
  intros HV.
  destruct (signed_decode_spec Wrap r out HV) as
    [(t & rst & E1 & Ht & R)|[(m & c & t & rst & E1 & Hm & Hc & Ht & Hl & R)|(N & R)]].
  - assert (wide [t]) as W.
    { pose proof (sval_one_range t Ht). split; [exists [], t; repeat split; auto; lia|].
      change (len [t]) with 1. lia. }
    exists true. eexists _, _. split; [exact R|]. cbn [r_mem r_ptr r_end].
    pose proof (content_len r [t] rst HV E1) as CL. change (len [t]) with 1 in CL.
    repeat split; try lia; try discriminate.
    + intros ->. reflexivity.
    + intros o2. eexists. rewrite (signed_wrap_accept r o2 [t] HV (ex_intro _ rst E1) W). reflexivity.
  - assert (content r = (m :: c ++ [t]) ++ rst) as E2 by (rewrite E1; cbn; rewrite <- app_assoc; reflexivity).
    unfold smany in R. rewrite andb_false_r in R.
    destruct ((-2^64 <=? sval (m :: c ++ [t])) && (sval (m :: c ++ [t]) <? 2^64)) eqn:W.
    + assert (wide (m :: c ++ [t])) as W'.
      { split; [apply shape_many; auto|]. rewrite len_many. lia. }
      exists true. eexists _, _. split; [exact R|]. cbn [r_mem r_ptr r_end].
      pose proof (content_len r _ rst HV E2) as CL. rewrite len_many in *.
      pose proof (len_nonneg c).
      repeat split; try lia; try discriminate.
      * intros ->. reflexivity.
      * intros o2. eexists. rewrite (signed_wrap_accept r o2 _ HV (ex_intro _ rst E2) W').
        rewrite len_many. reflexivity.
    + exists false, r, out. split; [exact R|]. repeat split; try discriminate.
      intros o2. exists o2. apply signed_wrap_reject; auto.
      intros enc (rest & E) (S & L & W2).
      assert (enc = (m :: c) ++ [t]) as ->.
      { apply (shape_unique (m :: c) t rst enc rest); auto. cbn. congruence. }
      cbn [app] in W2. lia.
  - exists false, r, out. split; [exact R|]. repeat split; try discriminate.
    intros o2. exists o2. apply signed_wrap_reject; auto.
    intros enc (rest & E) (S & L & W2). specialize (N enc rest E S). lia.
Qed.

Theorem C06_unsigned_decode_frame : forall r out, valid_range r ->
  exists ok r' out', unsigned_mbn_decode r out = Ok (ok, r', out') /\
    r_mem r' = r_mem r /\ r_end r' = r_end r /\
    (ok = true -> r_ptr r < r_ptr r' <= r_ptr r + 10 /\ r_ptr r' <= r_end r /\
                  (out = None -> out' = None)) /\
    (ok = false -> r' = r /\ out' = out) /\
    (forall o2, exists o3, unsigned_mbn_decode r o2 = Ok (ok, r', o3)).
Proof. exact decode_frame_u. Qed.
Print Assumptions C06_unsigned_decode_frame.

Theorem C06_signed_decode_frame : forall r out, valid_range r ->
  exists ok r' out', signed_mbn_decode Wrap r out = Ok (ok, r', out') /\
    r_mem r' = r_mem r /\ r_end r' = r_end r /\
    (ok = true -> r_ptr r < r_ptr r' <= r_ptr r + 10 /\ r_ptr r' <= r_end r /\
                  (out = None -> out' = None)) /\
    (ok = false -> r' = r /\ out' = out) /\
    (forall o2, exists o3, signed_mbn_decode Wrap r o2 = Ok (ok, r', o3)).
Proof. exact decode_frame_s. Qed.
Print Assumptions C06_signed_decode_frame.

(* a cut sequence at the very end of the block: nothing beyond is read *)
Example C06_example : unsigned_mbn_decode (mkRange [5; 255; 255] 1 3) (Some 9) =
  Ok (false, mkRange [5; 255; 255] 1 3, Some 9).
Proof. reflexivity. Qed.

(* ------------------------------------------------------------------ C07 *)
Lemma content_whole_prefix b enc : starts_with (content (whole b)) enc <-> exists rest, b = enc ++ rest.
Proof. unfold starts_with. rewrite content_whole. reflexivity. Qed.

Lemma decode2_u b out : Forall is_byte b ->
  (forall v, ubn b v -> unsigned_mbn_decode2 (Some b) out = Ok (true, option_map (fun _ => v) out)) /\
  ((forall v, ~ ubn b v) -> unsigned_mbn_decode2 (Some b) out = Ok (false, out)).
Proof.
  intros Hb. pose proof (valid_whole b Hb) as HV. split.
  - intros v U. unfold unsigned_mbn_decode2.
    pose proof (mbn_shape_nonempty _ (proj1 U)). replace (len b =? 0) with false by lia.
    rewrite (unsigned_decode_accept (whole b) (Some 0) b v HV); auto.
    2:{ apply content_whole_prefix. exists []. rewrite app_nil_r. reflexivity. }
    cbn [bind option_map r_ptr r_end whole]. rewrite Z.add_0_l, Z.eqb_refl. cbn [andb]. rewrite store_eq. reflexivity.
  - intros No. unfold unsigned_mbn_decode2.
    destruct (Z.eqb_spec (len b) 0) as [E0|E0]; auto.
    destruct (ubn_dec (whole b) HV) as [(enc & v & rest & E & U)|No2].
    + rewrite (unsigned_decode_accept (whole b) (Some 0) enc v HV (ex_intro _ rest E) U).
      cbn [bind option_map r_ptr r_end whole]. rewrite Z.add_0_l.
      rewrite content_whole in E. destruct (Z.eqb_spec (len enc) (len b)) as [El|]; auto.
      exfalso. apply (No v). replace b with enc; auto.
      rewrite E, len_app in El. assert (rest = []) as ->.
      { destruct rest; auto. rewrite len_cons in El. pose proof (len_nonneg rest). lia. }
      rewrite app_nil_r in E. congruence.
    + rewrite unsigned_decode_reject by auto. reflexivity.
Qed.

Theorem C07_unsigned_decode2 : forall b out, Forall is_byte b ->
  (forall v, ubn b v -> unsigned_mbn_decode2 (Some b) out = Ok (true, option_map (fun _ => v) out)) /\
  ((forall v, ~ ubn b v) -> unsigned_mbn_decode2 (Some b) out = Ok (false, out)).
Proof. exact decode2_u. Qed.
Print Assumptions C07_unsigned_decode2.

Lemma decode2_s b out : Forall is_byte b ->
  (wide b -> signed_mbn_decode2 Wrap (Some b) out = Ok (true, option_map (fun _ => s64 (sval b)) out)) /\
  (~ wide b -> signed_mbn_decode2 Wrap (Some b) out = Ok (false, out)).
Proof.
  intros Hb. pose proof (valid_whole b Hb) as HV. split.
  - intros W. unfold signed_mbn_decode2.
    pose proof (mbn_shape_nonempty _ (proj1 W)). replace (len b =? 0) with false by lia.
    rewrite (signed_wrap_accept (whole b) (Some 0) b HV); auto.
    2:{ apply content_whole_prefix. exists []. rewrite app_nil_r. reflexivity. }
    cbn [bind option_map r_ptr r_end whole]. rewrite Z.add_0_l, Z.eqb_refl. cbn [andb]. rewrite store_eq. reflexivity.
  - intros No. unfold signed_mbn_decode2.
    destruct (Z.eqb_spec (len b) 0) as [E0|E0]; auto.
    destruct (decode_frame_s (whole b) (Some 0) HV) as (ok & r' & out' & R & M & En & Hok & Hno & _).
    rewrite R. cbn [bind].
    destruct ok; [|reflexivity]. cbn [andb].
    destruct (Z.eqb_spec (r_ptr r') (r_end r')) as [Ee|]; auto. exfalso.
    destruct (signed_decode_spec Wrap (whole b) (Some 0) HV) as
      [(t & rst & E1 & Ht & R1)|[(m & c & t & rst & E1 & Hm & Hc & Ht & Hl & R1)|(N & R1)]];
      rewrite R in R1.
    + inversion R1; subst. cbn in Ee. rewrite content_whole in E1. subst b.
      rewrite len_cons in Ee. assert (rst = []) as ->.
      { destruct rst; auto. rewrite len_cons in Ee. pose proof (len_nonneg rst). lia. }
      apply No. pose proof (sval_one_range t Ht). split; [exists [], t; repeat split; auto; lia|].
      change (len [t]) with 1. lia.
    + unfold smany in R1. rewrite andb_false_r in R1.
      destruct ((-2^64 <=? sval (m :: c ++ [t])) && (sval (m :: c ++ [t]) <? 2^64)) eqn:W; [|discriminate].
      inversion R1; subst. cbn [r_ptr r_end whole] in Ee. rewrite content_whole in E1. subst b.
      replace (m :: c ++ t :: rst) with ((m :: c ++ [t]) ++ rst) in * by (cbn; rewrite <- app_assoc; reflexivity).
      rewrite (len_app (m :: c ++ [t])) in Ee. assert (rst = []) as ->.
      { destruct rst; auto. rewrite (len_cons z) in Ee. pose proof (len_nonneg rst). lia. }
      apply No. rewrite app_nil_r. split; [apply shape_many; auto|]. rewrite len_many. lia.
    + discriminate.
Qed.

Theorem C07_signed_decode2 : forall b out, Forall is_byte b ->
  (wide b -> signed_mbn_decode2 Wrap (Some b) out = Ok (true, option_map (fun _ => s64 (sval b)) out)) /\
  (~ wide b -> signed_mbn_decode2 Wrap (Some b) out = Ok (false, out)).
Proof. exact decode2_s. Qed.
Print Assumptions C07_signed_decode2.

Theorem C07_null_data : forall d out,
  unsigned_mbn_decode2 None out = Ok (false, out) /\ signed_mbn_decode2 d None out = Ok (false, out).
Proof. split; reflexivity. Qed.
Print Assumptions C07_null_data.

Example C07_example :
  unsigned_mbn_decode2 (Some [129; 1]) (Some 0) = Ok (true, Some 129) /\
  unsigned_mbn_decode2 (Some [129; 1; 0]) (Some 5) = Ok (false, Some 5) /\
  signed_mbn_decode2 Wrap (Some [255; 63]) (Some 5) = Ok (true, Some (-65)).
Proof. repeat split; reflexivity. Qed.

(* ------------------------------------------------------------------ C08 *)
(* False: decoding a nine byte negative number shifts 1 into the sign bit of gint64 *)
Theorem C08_signed_decode_no_ub_refuted :
  exists r, valid_range r /\ signed_mbn_decode Strict r (Some 0) = Fail BadShift.
Proof.
  exists (mkRange [255;255;255;255;255;255;255;255;127] 0 9). split; [|reflexivity].
  repeat split; cbn; try lia. repeat constructor; unfold is_byte; lia.
Qed.
Print Assumptions C08_signed_decode_no_ub_refuted.

(* It happens exactly for those numbers (and a non-NULL output); for all other inputs the
   strict behaviour is the two's complement one, in particular no fault *)
Theorem C08_signed_decode_ub_exact_partial : forall r out, valid_range r ->
  (forall o enc, out = Some o -> starts_with (content r) enc -> mbn_shape enc -> len enc = 9 ->
     64 <= hd 0 enc mod 128 -> signed_mbn_decode Strict r out = Fail BadShift) /\
  ((out = None \/ forall enc, starts_with (content r) enc -> mbn_shape enc -> len enc = 9 ->
     hd 0 enc mod 128 < 64) ->
   signed_mbn_decode Strict r out = signed_mbn_decode Wrap r out /\
   exists ok r' o', signed_mbn_decode Strict r out = Ok (ok, r', o')).
Proof.
  intros r out HV. split.
  - intros o enc -> S A B C. apply (signed_strict_ub r o enc); auto. split; auto.
  - intros H.
    assert (signed_mbn_decode Strict r out = signed_mbn_decode Wrap r out) as E.
    { apply signed_strict_eq; auto. destruct H as [H|H]; auto. right.
      intros enc S (A & B & C). specialize (H enc S A B). lia. }
    split; auto. destruct (decode_frame_s r out HV) as (ok & r' & o' & R & _). rewrite E. eauto.
Qed.
Print Assumptions C08_signed_decode_ub_exact_partial.

Example C08_example : signed_mbn_decode Strict (mkRange [254; 127] 0 2) (Some 0) =
  Ok (true, mkRange [254; 127] 2 2, Some (-129)).
Proof. reflexivity. Qed.

(* ------------------------------------------------------------------ C09 *)
Lemma tlv_round_trip tag val v pre mid post n :
  1 <= tag <= 2^31 - 1 -> len v < 2^63 ->
  match val with Some x => x = v | None => v = [] end ->
  (exists a b, least_size (fits_u tag) a /\ least_size (fits_u (len v)) b /\ n = a + b + len v) ->
  len mid = n ->
  exists enc, tlv_encode (pre ++ mid ++ post) (len pre) tag val = Ok (pre ++ enc ++ post, n) /\
    tlv_min enc tag v /\ len enc = n /\
    forall r rest out, valid_range r -> content r = enc ++ rest ->
      tlv_decode r out = Ok (tag, mkRange (r_mem r) (r_ptr r + n) (r_end r),
                             option_map (fun _ => mkData (Some (r_ptr r + n - len v)) (len v)) out) /\
      slice (r_mem r) (r_ptr r + n - len v) (r_ptr r + n) = v.
Proof.
  intros Ht Hv Hval (a & b & La & Lb & En) Hm. pose proof (len_nonneg v).
  assert (in_u64 tag) as T64 by (unfold in_u64; lia).
  assert (in_u64 (len v)) as V64 by (unfold in_u64; lia).
  destruct (unsigned_size_spec tag T64) as (a' & Ea & La' & A10).
  destruct (unsigned_size_spec (len v) V64) as (b' & Eb & Lb' & B10).
  assert (forall f x y, least_size f x -> least_size f y -> x = y) as Luniq.
  { intros f x y (X1 & X2 & X3) (Y1 & Y2 & Y3).
    destruct (Z.lt_trichotomy x y) as [Hl|[Hl|Hl]]; auto; exfalso; [apply (Y3 x)|apply (X3 y)]; auto; lia. }
  rewrite (Luniq _ _ _ La La') in *. rewrite (Luniq _ _ _ Lb Lb') in *. clear La Lb a b.
  pose proof (proj1 La'). pose proof (proj1 Lb').
  pose proof (enc_bytes_ubn tag a' T64 (proj1 (proj2 La')) ltac:(lia)) as Ut.
  pose proof (enc_bytes_ubn (len v) b' V64 (proj1 (proj2 Lb')) ltac:(lia)) as Ul.
  set (T := enc_bytes tag a') in *. set (L := enc_bytes (len v) b') in *.
  assert (len T = a') as LT by (apply enc_bytes_len; lia).
  assert (len L = b') as LL by (apply enc_bytes_len; lia).
  exists (T ++ L ++ v). subst n. split; [apply tlv_encode_spec; auto; lia|]. split.
  - exists T, L. rewrite LT, LL. repeat split; auto; try apply Ut; try apply Ul; try apply La'; try apply Lb'.
  - split; [rewrite !len_app; lia|]. intros r rest out HV C.
    assert (tlv_of (T ++ L ++ v) tag v) as Hof by (exists T, L; auto).
    destruct (tlv_decode_accept r out _ tag v rest HV C Hof ltac:(lia) Hv) as (R & S & _).
    rewrite R, store_eq. rewrite !len_app, LT, LL in *.
    rewrite <- !Z.add_assoc in *. split; auto.
Qed.

Theorem C09_tlv_round_trip : forall tag val v pre mid post n,
  1 <= tag <= 2^31 - 1 -> len v < 2^63 ->
  match val with Some x => x = v | None => v = [] end ->
  (exists a b, least_size (fits_u tag) a /\ least_size (fits_u (len v)) b /\ n = a + b + len v) ->
  len mid = n ->
  exists enc, tlv_encode (pre ++ mid ++ post) (len pre) tag val = Ok (pre ++ enc ++ post, n) /\
    tlv_min enc tag v /\ len enc = n /\
    forall r rest out, valid_range r -> content r = enc ++ rest ->
      tlv_decode r out = Ok (tag, mkRange (r_mem r) (r_ptr r + n) (r_end r),
                             option_map (fun _ => mkData (Some (r_ptr r + n - len v)) (len v)) out) /\
      slice (r_mem r) (r_ptr r + n - len v) (r_ptr r + n) = v.
Proof. exact tlv_round_trip. Qed.
Print Assumptions C09_tlv_round_trip.

Example C09_example :
  tlv_encode [9;9;9;9;9;9;9] 1 200 (Some [7;8]) = Ok ([9;129;72;2;7;8;9], 5) /\
  tlv_decode (mkRange [9;129;72;2;7;8;9] 1 7) (Some (mkData None 0)) =
    Ok (200, mkRange [9;129;72;2;7;8;9] 6 7, Some (mkData (Some 4) 2)) /\
  tlv_encode [9;9;9] 0 5 None = Ok ([5;0;9], 2).
Proof. repeat split; reflexivity. Qed.

(* ------------------------------------------------------------------ C10 *)
(* False: a length of 2^63 or more is cast to a negative number and accepted *)
Definition huge_tlv : list Z := [1; 129;255;255;255;255;255;255;255;255;117]. (* length 2^64 - 11 *)

Theorem C10_tlv_decode_inside_refuted :
  exists r tag r' o n, valid_range r /\
    tlv_decode r (Some (mkData None 0)) = Ok (tag, r', Some (mkData (Some o) n)) /\ tag <> 0 /\
    ~ (o + n <= r_end r) /\ ~ (r_ptr r < r_ptr r').
Proof.
  exists (mkRange huge_tlv 0 11), 1, (mkRange huge_tlv 0 11), 11, (2^64 - 11).
  repeat split; cbn; try lia. repeat constructor; unfold is_byte; lia.
Qed.
Print Assumptions C10_tlv_decode_inside_refuted.

(* ... and decoding goes on outside of the input *)
Theorem C10_tlvs_decode_reads_refuted : exists bytes tags, Forall is_byte bytes /\ tlvs_decode 9 bytes tags None false = Fail OobRead.
Proof. exists [1; 129;255;255;255;255;255;255;255;255;116], [1]. split; [repeat constructor; unfold is_byte; lia|]. vm_compute. reflexivity. Qed.
Print Assumptions C10_tlvs_decode_reads_refuted.

(* Holds whenever the length field is below 2^63 (missing: larger lengths must be rejected) *)
Lemma tlv_inside r out tag r' o n : valid_range r ->
  tlv_decode r (Some out) = Ok (tag, r', Some (mkData (Some o) n)) -> tag <> 0 -> n < 2^63 ->
  r_ptr r < o /\ o + n <= r_end r /\ r_ptr r' = o + n /\ r_mem r' = r_mem r /\ r_end r' = r_end r /\ 0 <= n.
Proof.
  intros HV R Ht Hn.
  destruct (tlv_decode_cases r (Some out) HV) as [(t & tag' & l & L & rest & E & Ut & _ & Ul & Hs & R')|(R' & _)].
  - rewrite R in R'. inversion R'; subst. cbn [r_ptr r_mem r_end].
    pose proof (ubn_nonneg _ _ Ul). rewrite s64_small in * by lia.
    rewrite app_assoc in E. destruct (content_advance r (t ++ l) rest HV E) as (_ & _ & El).
    rewrite len_app in El. pose proof (mbn_shape_nonempty _ (proj1 Ut)). pose proof (mbn_shape_nonempty _ (proj1 Ul)).
    repeat split; try lia.
  - rewrite R in R'. inversion R'; subst. lia.
Qed.
Theorem C10_tlv_decode_inside_partial : forall r out tag r' o n, valid_range r ->
  tlv_decode r (Some out) = Ok (tag, r', Some (mkData (Some o) n)) -> tag <> 0 -> n < 2^63 ->
  r_ptr r < o /\ o + n <= r_end r /\ r_ptr r' = o + n /\ r_mem r' = r_mem r /\ r_end r' = r_end r /\ 0 <= n.
Proof. exact tlv_inside. Qed.
Print Assumptions C10_tlv_decode_inside_partial.

(* Reading itself is always safe: the call returns without a fault on any valid range, and
   if it returns a tag the value block is reported *)
Lemma tlv_safe r out : valid_range r -> exists tag r' out', tlv_decode r out = Ok (tag, r', out') /\
  0 <= tag <= 2^31 - 1 /\ (tag <> 0 -> forall x, out = Some x -> exists o n, out' = Some (mkData (Some o) n)).
Proof.
  intros HV. destruct (tlv_decode_cases r out HV) as [(t & tag & l & L & rest & E & Ut & Htag & Ul & Hs & R')|(R' & _)];
  rewrite R'; eexists _, _, _; (split; [reflexivity|]).
  - pose proof (ubn_nonneg _ _ Ut). split; [lia|]. intros _ x ->. cbn. eauto.
  - split; [lia|]. intros H. lia.
Qed.
Theorem C10_tlv_decode_safe : forall r out, valid_range r ->
  exists tag r' out', tlv_decode r out = Ok (tag, r', out') /\
  0 <= tag <= 2^31 - 1 /\ (tag <> 0 -> forall x, out = Some x -> exists o n, out' = Some (mkData (Some o) n)).
Proof. exact tlv_safe. Qed.
Print Assumptions C10_tlv_decode_safe.

Example C10_example : valid_range (mkRange [1;2;7;8;9] 0 5) /\
  tlv_decode (mkRange [1;2;7;8;9] 0 5) (Some (mkData None 0)) =
  Ok (1, mkRange [1;2;7;8;9] 4 5, Some (mkData (Some 2) 2)).
Proof. repeat split; cbn; try lia. repeat constructor; unfold is_byte; lia. Qed.

(* ------------------------------------------------------------------ C11 *)
Theorem C11_tlvs_decode_success : forall fuel es bytes tags vals skip,
  Forall is_byte bytes -> len bytes < 2^63 -> tlv_seq es bytes -> fine tags skip es ->
  slots_enough tags vals -> (length es < fuel)%nat ->
  exists m new, tlvs_decode fuel bytes tags vals skip = Ok (m, new) /\
    mask_ok tags es m /\ vals_ok bytes tags es vals new.
Proof. exact tlvs_fine. Qed.
Print Assumptions C11_tlvs_decode_success.

Theorem C11_tlvs_decode_failure : forall fuel pre tag v post bytes tags vals skip,
  Forall is_byte bytes -> len bytes < 2^63 ->
  tlv_seq (pre ++ (tag, v) :: post) bytes -> fine tags skip pre ->
  slots_enough tags vals -> (length pre < fuel)%nat ->
  (requested tags tag -> In tag (map fst pre) ->
     exists new, tlvs_decode fuel bytes tags vals skip = Ok (-2, new)) /\
  (~ requested tags tag -> skip = false ->
     exists new, tlvs_decode fuel bytes tags vals skip = Ok (-3, new)).
Proof. exact tlvs_bad. Qed.
Print Assumptions C11_tlvs_decode_failure.

(* the two cases are exhaustive *)
Lemma fine_or_bad tags skip es : fine tags skip es \/
  exists pre tag v post, es = pre ++ (tag, v) :: post /\ fine tags skip pre /\
    ((requested tags tag /\ In tag (map fst pre)) \/ (~ requested tags tag /\ skip = false)).
Proof.
  induction es as [|(t, v) es IH] using rev_ind.
  - left. split; [|right; intros t []]. intros t pre post E. destruct pre; discriminate.
  - destruct IH as [F|(pre & tag & w & post & -> & F & B)].
    + destruct (in_dec Z.eq_dec t (firstn 31 tags)) as [R|R].
      * destruct (in_dec Z.eq_dec t (map fst es)) as [D|D].
        -- right. exists es, t, v, []. auto.
        -- left. apply fine_app; auto.
      * destruct skip.
        -- left. apply fine_app; auto.
        -- right. exists es, t, v, []. auto.
    + right. exists pre, tag, w, (post ++ [(t, v)]). rewrite <- app_assoc. auto.
Qed.
Theorem C11_tlvs_decode_exhaustive : forall tags skip es, fine tags skip es \/
  exists pre tag v post, es = pre ++ (tag, v) :: post /\ fine tags skip pre /\
    ((requested tags tag /\ In tag (map fst pre)) \/ (~ requested tags tag /\ skip = false)).
Proof. exact fine_or_bad. Qed.
Print Assumptions C11_tlvs_decode_exhaustive.

Example C11_example :
  tlvs_decode 5 [5;1;65; 3;0; 9;2;1;2] [3;4;5] (Some [mkData (Some 0) 1; mkData (Some 0) 1; mkData (Some 0) 1]) true =
    Ok (5, Some [mkData (Some 5) 0; mkData None 0; mkData (Some 2) 1]) /\
  tlvs_decode 5 [5;1;65; 3;0; 5;0] [3;4;5] None true = Ok (-2, None) /\
  tlvs_decode 5 [5;1;65; 7;0; 5;0] [3;4;5] None false = Ok (-3, None).
Proof. repeat split; reflexivity. Qed.

(* ------------------------------------------------------------------ C12 *)
(* False: with unknown tags skipped, a length that moves the pointer back loops forever *)
Theorem C12_tlvs_decode_terminates_refuted :
  exists bytes tags, Forall is_byte bytes /\
    forall fuel, tlvs_decode fuel bytes tags None true = Fail NoFuel.
Proof.
  exists huge_tlv, [2]. split; [repeat constructor; unfold is_byte; lia|].
  intros fuel. unfold tlvs_decode. cbn [bind].
  induction fuel as [|fuel IH]; [reflexivity|].
  cbn [tlvs_loop].
  change (tlv_decode (whole huge_tlv) (Some {| d_off := None; d_size := 0 |})) with
    (@Ok (Z * range * option data) (1, whole huge_tlv, Some (mkData (Some 11) (2^64 - 11)))).
  cbn [bind]. exact IH.
Qed.
Print Assumptions C12_tlvs_decode_terminates_refuted.

(* Without the skip flag the loop ends after at most 32 rounds, whatever the input *)
Theorem C12_tlvs_decode_terminates_noskip_partial : forall bytes tags vals fuel, (32 <= fuel)%nat ->
  tlvs_decode fuel bytes tags vals false <> Fail NoFuel.
Proof. exact tlvs_decode_noskip. Qed.
Print Assumptions C12_tlvs_decode_terminates_noskip_partial.

(* With or without it, the loop ends without a fault if no number of 2^63 or more occurs *)
Theorem C12_tlvs_decode_terminates_partial : forall bytes tags vals skip fuel,
  Forall is_byte bytes -> no_huge bytes -> slots_enough tags vals -> (length bytes < fuel)%nat ->
  exists code new, tlvs_decode fuel bytes tags vals skip = Ok (code, new).
Proof.
  intros. destruct (tlvs_decode_nohuge bytes tags vals skip fuel) as (c & n & R & _); eauto.
Qed.
Print Assumptions C12_tlvs_decode_terminates_partial.

(* an input with fewer than ten bytes is never dangerous *)
Lemma short_no_huge bytes : len bytes < 10 -> no_huge bytes.
Proof.
  intros H pre enc rest v -> (_ & _ & <- & _). rewrite !len_app in H.
  pose proof (len_nonneg pre). pose proof (len_nonneg rest).
  pose proof (uval_short enc). lia.
Qed.
Example C12_example : no_huge [5;1;65; 3;0; 9;2;1;2].
Proof. apply short_no_huge. cbn. lia. Qed.

(* ------------------------------------------------------------------ C13 *)
(* False: a zero tag is consumed although "nothing" is returned *)
Theorem C13_tlv_decode_clean_refuted :
  exists r r', valid_range r /\ tlv_decode r None = Ok (0, r', None) /\ r' <> r.
Proof.
  exists (mkRange [0;0;1] 0 3), (mkRange [0;0;1] 2 3). repeat split; cbn; try lia; try discriminate.
  repeat constructor; unfold is_byte; lia.
Qed.
Print Assumptions C13_tlv_decode_clean_refuted.

Theorem C13_tlvs_decode_zero_tag_refuted :
  exists bytes, Forall is_byte bytes /\ tlvs_decode 2 bytes [1] None false = Ok (0, None) /\
    forall es, ~ tlv_seq es bytes.
Proof.
  exists [0; 0]. split; [repeat constructor; unfold is_byte; lia|]. split; [reflexivity|].
  intros es H. inversion H as [|tag v enc es' bytes Ht He Hs E1 E2]; subst.
  destruct He as (t & l & Ut & _ & ->).
  assert (t = [] ++ [0]) as ->.
  { apply (shape_unique [] 0 [0] t ((l ++ v) ++ bytes)); auto; try lia.
    - cbn. rewrite <- E2. rewrite <- !app_assoc. reflexivity.
    - apply Ut. }
  destruct Ut as (_ & _ & U & _). cbn in U. lia.
Qed.
Print Assumptions C13_tlvs_decode_zero_tag_refuted.

(* What holds: a zero result changes nothing unless the input starts with a zero-tag TLV *)
Lemma tlv_clean r out r' out' : valid_range r -> tlv_decode r out = Ok (0, r', out') ->
  (r' = r /\ out' = out) \/ (exists t rest, content r = t ++ rest /\ ubn t 0).
Proof.
  intros HV R. destruct (tlv_decode_cases r out HV) as [(t & tag & l & L & rest & E & Ut & Htag & Ul & Hs & R')|(R' & _)];
  rewrite R in R'; inversion R'; subst; auto. right. exists t, (l ++ rest). auto.
Qed.
Theorem C13_tlv_decode_clean_partial : forall r out r' out',
  valid_range r -> tlv_decode r out = Ok (0, r', out') ->
  (r' = r /\ out' = out) \/ (exists t rest, content r = t ++ rest /\ ubn t 0).
Proof. exact tlv_clean. Qed.
Print Assumptions C13_tlv_decode_clean_partial.

(* An accepted input is a sequence of TLVs, possibly followed by one TLV with a zero tag *)
Theorem C13_tlvs_decode_accepts_only_tlvs_partial : forall bytes tags vals skip fuel code new,
  Forall is_byte bytes -> no_huge bytes -> slots_enough tags vals -> (length bytes < fuel)%nat ->
  tlvs_decode fuel bytes tags vals skip = Ok (code, new) -> 0 <= code ->
  exists es b1 b2, bytes = b1 ++ b2 /\ tlv_seq es b1 /\ (b2 = [] \/ exists v, tlv_of b2 0 v).
Proof.
  intros bytes tags vals skip fuel code new Hb Hn Hs Hf R Hc.
  destruct (tlvs_decode_nohuge bytes tags vals skip fuel Hb Hn Hs Hf) as (c & n & R' & H).
  rewrite R in R'. inversion R'; subst. auto.
Qed.
Print Assumptions C13_tlvs_decode_accepts_only_tlvs_partial.

Example C13_example : tlvs_decode 9 [5;1;65; 3;2;1] [3;5] None false = Ok (-1, None) /\
  tlvs_decode 9 [5;1;65; 3;1;1] [3;5] None false = Ok (3, None).
Proof. split; reflexivity. Qed.

(* ------------------------------------------------------------------ C14 *)
(* False for lengths of 4 GB and more: the result is truncated to guint *)
Theorem C14_tlv_size_refuted :
  exists tag l a b, 1 <= tag <= 2^31 - 1 /\ in_u64 l /\
    least_size (fits_u tag) a /\ least_size (fits_u l) b /\ tlv_size tag l <> Ok (a + b + l).
Proof.
  exists 1, (2^32), 1, 5. unfold in_u64. split; [lia|]. split; [lia|]. split; [|split].
  - split; [lia|]. unfold fits_u. split; [cbn; lia|]. intros; lia.
  - destruct (unsigned_size_spec (2^32)) as (n & E & L & _); [unfold in_u64; lia|].
    change (unsigned_mbn_size (2^32)) with (@Ok Z 5) in E. inversion E; subst. exact L.
  - change (tlv_size 1 (2^32)) with (@Ok Z 6). intros H. inversion H.
Qed.
Print Assumptions C14_tlv_size_refuted.

(* Below that it is exactly what gutil_tlv_encode writes and returns *)
Lemma tlv_size_partial tag v val buf off n :
  0 <= tag < 2^32 -> match val with Some x => x = v | None => v = [] end ->
  len v < 2^32 - 20 -> tlv_size tag (len v) = Ok n ->
  0 <= off -> off + n <= len buf ->
  exists buf', tlv_encode buf off tag val = Ok (buf', n) /\
    firstn (Z.to_nat off) buf' = firstn (Z.to_nat off) buf /\
    skipn (Z.to_nat (off + n)) buf' = skipn (Z.to_nat (off + n)) buf /\ len buf' = len buf.
Proof.
  intros Ht Hval Hv Hn Ho Hb. pose proof (len_nonneg v).
  destruct (unsigned_size_spec tag) as (a & Ea & (A1 & _) & A10); [unfold in_u64; lia|].
  destruct (unsigned_size_spec (len v)) as (b & Eb & (B1 & _) & B10); [unfold in_u64; lia|].
  rewrite (tlv_size_spec tag (len v) a b Ea Eb Ht ltac:(unfold in_u64; lia)) in Hn.
  rewrite Z.mod_small in Hn by lia. inversion Hn; subst n.
  assert (exists pre mid post, buf = pre ++ mid ++ post /\ len pre = off /\ len mid = a + b + len v)
    as (pre & mid & post & E & Lp & Lm).
  { exists (firstn (Z.to_nat off) buf), (firstn (Z.to_nat (a + b + len v)) (skipn (Z.to_nat off) buf)),
      (skipn (Z.to_nat (a + b + len v)) (skipn (Z.to_nat off) buf)).
    rewrite !firstn_skipn. unfold len in *. rewrite !firstn_length, skipn_length. repeat split; lia. }
  pose proof (tlv_encode_spec pre mid post tag val v a b ltac:(lia) ltac:(lia) Hval Ea Eb Lm) as R.
  rewrite Lp, <- E in R. eexists. split; [exact R|].
  set (enc := enc_bytes tag a ++ enc_bytes (len v) b ++ v).
  assert (len enc = a + b + len v) as Le by (unfold enc; rewrite !len_app, !enc_bytes_len; lia).
  assert (Z.to_nat off = length pre) as Ep by (unfold len in Lp; lia).
  split; [|split].
  - rewrite E, Ep. rewrite !firstn_app, firstn_all, Nat.sub_diag. cbn. rewrite !app_nil_r. reflexivity.
  - assert (Z.to_nat (off + (a + b + len v)) = length (pre ++ enc)) as Es.
    { rewrite app_length. unfold len in *. lia. }
    assert (Z.to_nat (off + (a + b + len v)) = length (pre ++ mid)) as Es2.
    { rewrite app_length. unfold len in *. lia. }
    assert (forall (x y : list Z) k, k = length x -> skipn k (x ++ y) = y) as SK.
    { intros x y k ->. rewrite skipn_app, skipn_all, Nat.sub_diag. reflexivity. }
    rewrite E, (app_assoc pre mid), (SK (pre ++ mid) post) by exact Es2.
    fold enc. rewrite (app_assoc pre enc).
    apply SK; exact Es.
  - rewrite E, !len_app. lia.
Qed.
Theorem C14_tlv_size_predicts_encode_partial : forall tag v val buf off n,
  0 <= tag < 2^32 -> match val with Some x => x = v | None => v = [] end ->
  len v < 2^32 - 20 -> tlv_size tag (len v) = Ok n ->
  0 <= off -> off + n <= len buf ->
  exists buf', tlv_encode buf off tag val = Ok (buf', n) /\
    firstn (Z.to_nat off) buf' = firstn (Z.to_nat off) buf /\
    skipn (Z.to_nat (off + n)) buf' = skipn (Z.to_nat (off + n)) buf /\ len buf' = len buf.
Proof. exact tlv_size_partial. Qed.
Print Assumptions C14_tlv_size_predicts_encode_partial.

Example C14_example : tlv_size 200 2 = Ok 5 /\
  tlv_encode [9;9;9;9;9;9;9] 1 200 (Some [7;8]) = Ok ([9;129;72;2;7;8;9], 5).
Proof. split; reflexivity. Qed.
