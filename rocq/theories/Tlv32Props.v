(* C95: TLVs on 32-bit platforms *)
From Verif Require Import Base DatapackModel DatapackSpec DatapackProofs DatapackProofs2 DatapackTlv DatapackProps Tlv32Model Tlv32Spec.

(* ---------------- proofs ---------------- *)
Lemma s32_small z : 0 <= z < 2^31 -> s32 z = z.
Proof. intros. unfold s32. rewrite Z.mod_small; lia. Qed.
Lemma u32_small z : 0 <= z < 2^32 -> u32 z = z.
Proof. intros. unfold u32. apply Z.mod_small. lia. Qed.
Lemma u32_low v : low32 v (u32 v).
Proof. unfold low32, u32. split; [apply Z.mod_pos_bound; lia|]. exists (v / 2^32). pose proof (Z.div_mod v (2^32) ltac:(lia)). lia. Qed.
Lemma s32_low v : low32s v (s32 v).
Proof. unfold low32s, s32. pose proof (Z.mod_pos_bound (v + 2^31) (2^32) ltac:(lia)). split; [lia|]. exists ((v + 2^31) / 2^32). pose proof (Z.div_mod (v + 2^31) (2^32) ltac:(lia)). lia. Qed.
Lemma low32_unique v a b : low32 v a -> low32 v b -> a = b.
Proof. intros (A & i & E) (B & j & F). assert (i = j) by nia. lia. Qed.
Lemma low32s_unique v a b : low32s v a -> low32s v b -> a = b.
Proof. intros (A & i & E) (B & j & F). assert (i = j) by nia. lia. Qed.

(* The complete behaviour of gutil_tlv_decode on a valid range *)
Lemma decode32_cases r val : valid_range r ->
  (exists t tag l L rest, content r = t ++ l ++ rest /\ ubn t tag /\ tag <= 2^31 - 1 /\ ubn l L /\ s32 L <= len rest /\
     tlv_decode32 r val = Ok (tag, mkRange (r_mem r) (r_ptr r + len t + len l + s32 L) (r_end r), store val (mkData (Some (r_ptr r + len t + len l)) (u32 L)))) \/
  (tlv_decode32 r val = Ok (0, r, val) /\
   forall t tag l L rest, content r = t ++ l ++ rest -> ubn t tag -> tag <= 2^31 - 1 -> ubn l L -> s32 L <= len rest -> False).
Proof.
  intros HV. unfold tlv_decode32.
  destruct (ubn_dec r HV) as [(t & tag & rest & E & Ht)|No].
  2:{ right. rewrite unsigned_decode_reject by assumption. cbn [bind]. split; auto.
      intros t tag l L rest E Ht _ _ _. apply (No t tag); auto. exists (l ++ rest). exact E. }
  rewrite (unsigned_decode_accept r (Some 0) t tag HV (ex_intro _ rest E) Ht). cbn [bind option_map].
  destruct (content_advance r t rest HV E) as (HV' & E' & _).
  destruct (Z.leb_spec tag (2^31 - 1)) as [Htag|Htag].
  2:{ right. split; auto. intros t' tag' l L rest' E'' Ht' Htag' _ _.
      rewrite E in E''. destruct (ubn_unique _ _ _ _ _ _ E'' Ht Ht') as (_ & <- & _). lia. }
  set (r' := mkRange _ _ _) in *.
  destruct (ubn_dec r' HV') as [(l & L & rest2 & E2 & Hl)|No].
  2:{ right. rewrite unsigned_decode_reject by assumption. cbn [bind]. split; auto.
      intros t' tag' l L rest' E'' Ht' _ Hl _.
      rewrite E in E''. destruct (ubn_unique _ _ _ _ _ _ E'' Ht Ht') as (-> & <- & ->).
      apply (No l L); auto. exists rest'. exact E'. }
  rewrite (unsigned_decode_accept r' (Some 0) l L HV' (ex_intro _ rest2 E2) Hl). cbn [bind option_map].
  destruct (content_advance r' l rest2 HV' E2) as (HV2 & _ & El).
  subst r'. cbn [r_mem r_ptr r_end] in *.
  rewrite El.
  destruct (Z.geb_spec (len rest2) (s32 L)) as [Hok|Hbad].
  - left. exists t, tag, l, L, rest2. repeat split; auto; try apply Ht; try apply Hl; try congruence.
    rewrite u32_id; auto. pose proof (ubn_nonneg _ _ Ht). unfold in_u32. lia.
  - right. split; auto.
    intros t' tag' l' L' rest' E'' Ht' _ Hl' Hs'.
    rewrite E in E''. destruct (ubn_unique _ _ _ _ _ _ E'' Ht Ht') as (-> & <- & ->).
    rewrite E' in E2. destruct (ubn_unique _ _ _ _ _ _ E2 Hl' Hl) as (-> & <- & ->). lia.
Qed.

(* With a length field below 2^31 the word size does not matter *)
Lemma decode32_same r val : valid_range r -> (forall t tag l L rest, content r = t ++ l ++ rest -> ubn t tag -> ubn l L -> L < 2^31) -> tlv_decode32 r val = tlv_decode r val.
Proof.
  intros V H. destruct (decode32_cases r val V) as [(t & tag & l & L & rest & E & Ht & Hg & Hl & Hs & ->)|(-> & N)]; destruct (tlv_decode_cases r val V) as [(t' & tag' & l' & L' & rest' & E' & Ht' & Hg' & Hl' & Hs' & ->)|(-> & N')].
  - rewrite E in E'. destruct (ubn_unique _ _ _ _ _ _ E' Ht Ht') as (<- & <- & E''). destruct (ubn_unique _ _ _ _ _ _ E'' Hl Hl') as (<- & <- & <-).
    pose proof (H _ _ _ _ _ E Ht Hl). pose proof (ubn_nonneg _ _ Hl). rewrite s32_small, s64_small, u32_small by lia. reflexivity.
  - exfalso. pose proof (H _ _ _ _ _ E Ht Hl). pose proof (ubn_nonneg _ _ Hl). apply (N' t tag l L rest); auto. rewrite s32_small in Hs by lia. rewrite s64_small by lia. exact Hs.
  - exfalso. pose proof (H _ _ _ _ _ E' Ht' Hl'). pose proof (ubn_nonneg _ _ Hl'). apply (N t' tag' l' L' rest'); auto. rewrite s64_small in Hs' by lia. rewrite s32_small by lia. exact Hs'.
  - reflexivity.
Qed.

Lemma loop32_same (Q : range -> Prop) : (forall r, Q r -> valid_range r /\ (forall t tag l L rest, content r = t ++ l ++ rest -> ubn t tag -> ubn l L -> L < 2^31) /\
    forall tag r' v, tlv_decode r (Some (mkData None 0)) = Ok (tag, r', v) -> tag <> 0 -> Q r') ->
  forall f r tags vals skip m, Q r -> tlvs_loop32 f r tags vals skip m = tlvs_loop f r tags vals skip m.
Proof.
  intros H. induction f as [|f IH]; intros r tags vals skip m q; [reflexivity|]. destruct (H r q) as (V & Sm & Nx). cbn [tlvs_loop32 tlvs_loop]. rewrite (decode32_same r _ V Sm).
  destruct (tlv_decode r (Some (mkData None 0))) as [((tag, r'), v)|] eqn:E; cbn [bind]; [|reflexivity]. destruct (Z.eqb_spec tag 0); [reflexivity|].
  pose proof (Nx _ _ _ eq_refl n) as q'. destruct v as [v|]; [|reflexivity]. destruct (find_tag tags 0 tag) as [i|].
  - destruct (negb _); [reflexivity|]. destruct vals as [vs|]; [destruct (wr vs i v); cbn [bind]; [|reflexivity]|]; apply IH; exact q'.
  - destruct skip; [|reflexivity]. apply IH; exact q'.
Qed.

Lemma seq_same f es bytes tags vals skip : Forall is_byte bytes -> len bytes < 2^31 -> tlv_seq es bytes -> tlvs_decode32 f bytes tags vals skip = tlvs_decode f bytes tags vals skip.
Proof.
  intros B L Sq. unfold tlvs_decode32, tlvs_decode. destruct (match vals with Some _ => _ | None => _ end) as [v|]; cbn [bind]; [|reflexivity].
  apply (loop32_same (fun r => valid_range r /\ len (content r) < 2^31 /\ exists es, tlv_seq es (content r))).
  2:{ split; [apply valid_whole; auto|]. rewrite content_whole. eauto. }
  clear. intros r (V & L & es & Sq). split; [exact V|]. inversion Sq as [E1 E2|tag v enc es' bytes Ht He Hs E1 E2].
  - split.
    + intros t tg l Ln rest X (Sh & _). destruct t; [|discriminate]. apply mbn_shape_nonempty in Sh. cbn in Sh. lia.
    + intros tag r' v X. rewrite (tlv_decode_empty r _ V (eq_sym E2)) in X. congruence.
  - pose proof He as (t & l & Ut & Ul & Ee). subst enc. rewrite <- E2 in L. rewrite !len_app in L. pose proof (len_nonneg t). pose proof (len_nonneg l). pose proof (len_nonneg v). pose proof (len_nonneg bytes). split.
    + intros t' tg' l' L' rest' X Ut' Ul'. rewrite <- !app_assoc in X. destruct (ubn_unique _ _ _ _ _ _ X Ut Ut') as (<- & <- & X'). destruct (ubn_unique _ _ _ _ _ _ X' Ul Ul') as (_ & <- & _). lia.
    + intros tag' r' w X _. destruct (tlv_decode_accept r (Some (mkData None 0)) _ tag v bytes V (eq_sym E2) He) as (R & _); [lia|lia|]. rewrite R in X. injection X as _ <- _.
      destruct (content_advance r _ bytes V (eq_sym E2)) as (V' & C' & _). cbv zeta in V', C'. split; [exact V'|]. rewrite C'. split; [lia|eauto].
Qed.

Lemma no_long_huge bytes : no_long bytes -> no_huge bytes.
Proof. intros H pre enc rest v E U. pose proof (H _ _ _ _ E U). lia. Qed.
Lemma short_same f bytes tags vals skip : Forall is_byte bytes -> no_long bytes -> tlvs_decode32 f bytes tags vals skip = tlvs_decode f bytes tags vals skip.
Proof.
  intros B L. unfold tlvs_decode32, tlvs_decode. destruct (match vals with Some _ => _ | None => _ end) as [v|]; cbn [bind]; [|reflexivity].
  apply (loop32_same (fun r => valid_range r /\ no_long (content r))).
  2:{ split; [apply valid_whole; auto|]. rewrite content_whole. exact L. }
  clear. intros r (V & N). split; [exact V|]. split.
  - intros t tag l Ln rest X _ U. apply (N t l rest); auto.
  - intros tag r' v X Ne. destruct (tlv_decode_cases r (Some (mkData None 0)) V) as [(t & tg & l & L' & rest & E & Ht & Hg & Hl & Hs & R)|(R & _)]; rewrite R in X; [|congruence]. injection X as _ <- _.
    assert (L' < 2^31) by (apply (N t l rest); auto). pose proof (ubn_nonneg _ _ Hl). rewrite s64_small in * by lia.
    rewrite app_assoc in E. destruct (content_advance r (t ++ l) rest V E) as (V' & C' & El). cbv zeta in V', C'. rewrite len_app, Z.add_assoc in *.
    assert (X : exists a b, rest = a ++ b /\ len a = L').
    { exists (firstn (Z.to_nat L') rest), (skipn (Z.to_nat L') rest). rewrite firstn_skipn. unfold len in *. rewrite firstn_length. split; auto. lia. }
    destruct X as (a & b & -> & La). destruct (content_advance _ a b V' C') as (V2 & C2 & _). cbn [r_mem r_ptr r_end] in V2, C2. rewrite La in V2, C2. split; [exact V2|]. rewrite C2.
    intros pre enc rst w X. apply (N (((t ++ l) ++ a) ++ pre) enc rst). rewrite E, X, <- !app_assoc. reflexivity.
Qed.

Lemma encode32_same buf off tag val : (forall v, val = Some v -> len v < 2^32 - 20) -> 0 <= tag < 2^32 -> tlv_encode32 buf off tag val = tlv_encode buf off tag val.
Proof.
  intros H T. unfold tlv_encode32, tlv_encode, unsigned_mbn_encode.
  destruct (unsigned_size_spec tag) as (a & Ea & (A1 & _) & A10); [unfold in_u64; lia|]. rewrite Ea. cbn [bind].
  assert (Sz : forall b o v n b' k, unsigned_mbn_encode2 b o v n = Ok (b', k) -> k = n).
  { intros b o v n b' k. unfold unsigned_mbn_encode2. destruct (n >? 0); [|congruence]. destruct (wr _ _ _); cbn [bind]; [|discriminate]. destruct (enc_loop _ _ _ _) as [(?, ?)|]; cbn [bind]; congruence. }
  destruct (unsigned_mbn_encode2 buf off tag a) as [(b1, k1)|] eqn:E1; cbn [bind]; [|reflexivity]. apply Sz in E1. subst k1.
  assert (E : forall b : list Z, Ok (b, u32 (a + 1)) = Ok (b, u64 (u32 (a + 1)))) by (intros b; rewrite (u64_id (u32 (a + 1))); [reflexivity|]; unfold in_u64, u32; lia).
  destruct val as [[|x v]|]; try (destruct (wr b1 (off + a) 0); cbn [bind]; [apply E|reflexivity]).
  specialize (H _ eq_refl). set (V := x :: v) in *. clearbody V. pose proof (len_nonneg V).
  destruct (unsigned_size_spec (len V)) as (b & Eb & (B1 & _) & B10); [unfold in_u64; lia|]. rewrite Eb. cbn [bind].
  destruct (unsigned_mbn_encode2 b1 _ (len V) b) as [(b2, k2)|] eqn:E2; cbn [bind]; [|reflexivity]. apply Sz in E2. subst k2.
  destruct (copy_to _ _ _); cbn [bind]; [|reflexivity]. rewrite (u32_id (a + b)) by (unfold in_u32; lia). rewrite u32_id by (unfold in_u32; lia). rewrite u64_id by (unfold in_u64; lia). reflexivity.
Qed.
Lemma size32_same tag l : 0 <= tag < 2^32 -> 0 <= l < 2^32 -> tlv_size32 tag l = tlv_size tag l.
Proof.
  intros T L. unfold tlv_size32, tlv_size. destruct (unsigned_size_spec tag) as (a & Ea & (A1 & _) & A10); [unfold in_u64; lia|]. destruct (unsigned_size_spec l) as (b & Eb & (B1 & _) & B10); [unfold in_u64; lia|]. rewrite Ea, Eb. cbn [bind].
  rewrite (u32_id (a + b)) by (unfold in_u32; lia). rewrite u64_id by (unfold in_u64; lia). reflexivity.
Qed.

(* ---------------- C95 ---------------- *)
Theorem C95_round_trip tag val v pre mid post n :
  1 <= tag <= 2^31 - 1 -> len v < 2^31 ->
  match val with Some x => x = v | None => v = [] end ->
  (exists a b, least_size (fits_u tag) a /\ least_size (fits_u (len v)) b /\ n = a + b + len v) ->
  len mid = n ->
  exists enc, tlv_encode32 (pre ++ mid ++ post) (len pre) tag val = Ok (pre ++ enc ++ post, n) /\ tlv_min enc tag v /\ len enc = n /\
    forall r rest out, valid_range r -> content r = enc ++ rest ->
      tlv_decode32 r out = Ok (tag, mkRange (r_mem r) (r_ptr r + n) (r_end r), option_map (fun _ => mkData (Some (r_ptr r + n - len v)) (len v)) out) /\
      slice (r_mem r) (r_ptr r + n - len v) (r_ptr r + n) = v.
Proof.
  intros T L Hv Hn Hm. destruct (C09_tlv_round_trip tag val v pre mid post n T ltac:(lia) Hv Hn Hm) as (enc & E & M & Le & D). exists enc.
  split; [rewrite encode32_same; [exact E| |lia]; intros x ->; subst x; lia|]. split; [exact M|]. split; [exact Le|]. intros r rest out V C. rewrite decode32_same; [apply (D r rest out V C)|exact V|].
  destruct M as (t & l & Ut & _ & Ul & _ & ->). intros t' tg' l' L' rest' X Ut' Ul'. rewrite C, <- !app_assoc in X. destruct (ubn_unique _ _ _ _ _ _ X Ut Ut') as (_ & _ & X'). destruct (ubn_unique _ _ _ _ _ _ X' Ul Ul') as (_ & <- & _). exact L.
Qed.
Print Assumptions C95_round_trip.
Example C95_example_round_trip : tlv_encode32 [9;9;9;9;9;9;9] 1 200 (Some [7;8]) = Ok ([9;129;72;2;7;8;9], 5) /\
  tlv_decode32 (mkRange [9;129;72;2;7;8;9] 1 7) (Some (mkData None 0)) = Ok (200, mkRange [9;129;72;2;7;8;9] 6 7, Some (mkData (Some 4) 2)).
Proof. split; reflexivity. Qed.

(* gutil_tlv_size predicts gutil_tlv_encode for all values which fit into the address space with their header *)
Theorem C95_size tag v val buf off n :
  0 <= tag < 2^32 -> match val with Some x => x = v | None => v = [] end -> len v < 2^32 - 20 -> tlv_size32 tag (len v) = Ok n -> 0 <= off -> off + n <= len buf ->
  exists buf', tlv_encode32 buf off tag val = Ok (buf', n) /\ firstn (Z.to_nat off) buf' = firstn (Z.to_nat off) buf /\ skipn (Z.to_nat (off + n)) buf' = skipn (Z.to_nat (off + n)) buf /\ len buf' = len buf.
Proof.
  intros T Hv L E O B. pose proof (len_nonneg v). rewrite size32_same in E by lia. rewrite encode32_same; [|intros x ->; subst x; exact L|exact T]. apply (C14_tlv_size_predicts_encode_partial tag v val); auto.
Qed.
Print Assumptions C95_size.
Example C95_example_size : tlv_size32 200 2 = Ok 5 /\ tlv_size32 1 (2^32 - 21) = Ok (2^32 - 15).
Proof. split; vm_compute; reflexivity. Qed.

(* What is accepted: any length the low 32 bits of which are not too much *)
Theorem C95_decode_exact_partial r out : valid_range r ->
  (forall t tag l L n s rest, content r = t ++ l ++ rest -> ubn t tag -> tag <= 2^31 - 1 -> ubn l L -> low32 L n -> low32s L s -> s <= len rest ->
     tlv_decode32 r out = Ok (tag, mkRange (r_mem r) (r_ptr r + len t + len l + s) (r_end r), option_map (fun _ => mkData (Some (r_ptr r + len t + len l)) n) out)) /\
  ((forall t tag l L s rest, content r = t ++ l ++ rest -> ubn t tag -> tag <= 2^31 - 1 -> ubn l L -> low32s L s -> len rest < s) -> tlv_decode32 r out = Ok (0, r, out)).
Proof.
  intros V. destruct (decode32_cases r out V) as [(t & tag & l & L & rest & E & Ht & Hg & Hl & Hs & R)|(R & N)]; rewrite R; split.
  - intros t' tag' l' L' n s rest' E' Ht' Hg' Hl' Ln Ls Le. rewrite E in E'. destruct (ubn_unique _ _ _ _ _ _ E' Ht Ht') as (<- & <- & E''). destruct (ubn_unique _ _ _ _ _ _ E'' Hl Hl') as (<- & <- & <-).
    rewrite (low32_unique _ _ _ Ln (u32_low L)), (low32s_unique _ _ _ Ls (s32_low L)), store_eq. reflexivity.
  - intros H. pose proof (H _ _ _ _ _ _ E Ht Hg Hl (s32_low L)). lia.
  - intros t tag l L n s rest E Ht Hg Hl Ln Ls Le. destruct (N t tag l L rest E Ht Hg Hl). rewrite <- (low32s_unique _ _ _ Ls (s32_low L)). exact Le.
  - reflexivity.
Qed.
Print Assumptions C95_decode_exact_partial.

(* The length 2^32 + 1 is taken for 1: what is not a sequence of TLVs is accepted *)
Definition long_tlv : list Z := [5; 144;128;128;128;1; 7].
Theorem C95_length_refuted : exists bytes vals, Forall is_byte bytes /\ len bytes < 2^31 /\ (forall es b, tlv_seq es b -> b = bytes -> False) /\ (forall t rest, bytes = t ++ rest -> ubn t 0 -> False) /\
  tlvs_decode32 9 bytes [5] (Some [mkData None 0]) false = Ok (1, Some vals) /\ vals = [mkData (Some 6) 1].
Proof.
  exists long_tlv, [mkData (Some 6) 1].
  assert (U5 : ubn [5] 5) by (split; [exists [], 5; repeat split; auto; lia|]; repeat split; vm_compute; congruence).
  assert (U : ubn [144;128;128;128;1] (2^32 + 1)) by (split; [exists [144;128;128;128], 1; repeat split; try lia; repeat constructor; lia|]; repeat split; vm_compute; congruence).
  split; [repeat constructor; unfold is_byte; lia|]. split; [vm_compute; reflexivity|]. split; [|split; [|split; [vm_compute; reflexivity|reflexivity]]].
  - intros es b Sq ->. inversion Sq as [|tag v enc es' bytes Ht He Hs E1 E2]; subst. destruct He as (t & l & Ut & Ul & ->). rewrite <- !app_assoc in E2.
    destruct (ubn_unique _ _ _ _ _ _ (E2 : t ++ l ++ v ++ bytes = [5] ++ [144;128;128;128;1] ++ [7]) Ut U5) as (_ & _ & X). destruct (ubn_unique _ _ _ _ _ _ X Ul U) as (_ & Ln & Y).
    apply (f_equal len) in Y. rewrite len_app in Y. pose proof (len_nonneg bytes). change (len [7]) with 1 in Y. lia.
  - intros t rest E Ut. destruct (ubn_unique t rest 0 [5] [144;128;128;128;1;7] 5) as (_ & X & _); auto. discriminate.
Qed.
Print Assumptions C95_length_refuted.

(* Six bytes are enough for a block which is outside of the input and for a decoder which does not advance *)
Definition back_tlv (k : Z) : list Z := [1; 143;255;255;255;k]. (* length 2^32 - 128 + k *)
Theorem C95_inside_refuted : exists r tag r' o n, valid_range r /\ r_end r = 6 /\ tlv_decode32 r (Some (mkData None 0)) = Ok (tag, r', Some (mkData (Some o) n)) /\ tag <> 0 /\ ~ (o + n <= r_end r) /\ ~ (r_ptr r < r_ptr r').
Proof.
  exists (mkRange (back_tlv 122) 0 6), 1, (mkRange (back_tlv 122) 0 6), 6, (2^32 - 6). split; [|vm_compute; repeat split; congruence].
  repeat split; cbn; try lia. repeat constructor; unfold is_byte; lia.
Qed.
Print Assumptions C95_inside_refuted.
Theorem C95_terminates_refuted : exists bytes tags, Forall is_byte bytes /\ len bytes = 6 /\ forall fuel, tlvs_decode32 fuel bytes tags None true = Fail NoFuel.
Proof.
  exists (back_tlv 122), [2]. split; [repeat constructor; unfold is_byte; lia|]. split; [reflexivity|]. intros fuel. unfold tlvs_decode32. cbn [bind]. induction fuel as [|fuel IH]; [reflexivity|]. cbn [tlvs_loop32].
  change (tlv_decode32 (whole (back_tlv 122)) (Some {| d_off := None; d_size := 0 |})) with (@Ok (Z * range * option data) (1, whole (back_tlv 122), Some (mkData (Some 6) (2^32 - 6)))). cbn [bind]. exact IH.
Qed.
Print Assumptions C95_terminates_refuted.
(* ... and for reading what is in front of the input *)
Theorem C95_reads_refuted : exists bytes tags, Forall is_byte bytes /\ len bytes = 6 /\ tlvs_decode32 9 bytes tags None false = Fail OobRead.
Proof. exists (back_tlv 121), [1]. split; [repeat constructor; unfold is_byte; lia|]. split; vm_compute; reflexivity. Qed.
Print Assumptions C95_reads_refuted.

(* Whenever the size reported is below 2^31, the block is inside of the input and the next TLV is expected behind it *)
Theorem C95_inside_partial r out tag r' o n : valid_range r -> tlv_decode32 r (Some out) = Ok (tag, r', Some (mkData (Some o) n)) -> tag <> 0 -> n < 2^31 ->
  r_ptr r < o /\ o + n <= r_end r /\ r_ptr r' = o + n /\ r_mem r' = r_mem r /\ r_end r' = r_end r /\ 0 <= n.
Proof.
  intros V R T N. destruct (decode32_cases r (Some out) V) as [(t & tag' & l & L & rest & E & Ut & _ & Ul & Hs & R')|(R' & _)]; rewrite R in R'; inversion R'; subst; [|lia]. cbn [r_ptr r_mem r_end].
  destruct (u32_low L) as (B & k & X). destruct (s32_low L) as (B' & k' & X'). assert (s32 L = u32 L) by nia.
  rewrite app_assoc in E. destruct (content_advance r (t ++ l) rest V E) as (_ & _ & El). rewrite len_app in El. pose proof (mbn_shape_nonempty _ (proj1 Ut)). pose proof (mbn_shape_nonempty _ (proj1 Ul)). repeat split; lia.
Qed.
Print Assumptions C95_inside_partial.
Example C95_example_inside : valid_range (mkRange [1;2;7;8;9] 0 5) /\ tlv_decode32 (mkRange [1;2;7;8;9] 0 5) (Some (mkData None 0)) = Ok (1, mkRange [1;2;7;8;9] 4 5, Some (mkData (Some 2) 2)).
Proof. repeat split; cbn; try lia. repeat constructor; unfold is_byte; lia. Qed.

(* Decoding of lists *)
Theorem C95_list_success fuel es bytes tags vals skip : Forall is_byte bytes -> len bytes < 2^31 -> tlv_seq es bytes -> fine tags skip es -> slots_enough tags vals -> (length es < fuel)%nat ->
  exists m new, tlvs_decode32 fuel bytes tags vals skip = Ok (m, new) /\ mask_ok tags es m /\ vals_ok bytes tags es vals new.
Proof. intros B L Sq F Sl Fu. rewrite (seq_same fuel es) by auto. apply (C11_tlvs_decode_success fuel es bytes tags vals skip); auto. lia. Qed.
Print Assumptions C95_list_success.
Theorem C95_list_failure fuel pre tag v post bytes tags vals skip : Forall is_byte bytes -> len bytes < 2^31 -> tlv_seq (pre ++ (tag, v) :: post) bytes -> fine tags skip pre -> slots_enough tags vals -> (length pre < fuel)%nat ->
  (requested tags tag -> In tag (map fst pre) -> exists new, tlvs_decode32 fuel bytes tags vals skip = Ok (-2, new)) /\
  (~ requested tags tag -> skip = false -> exists new, tlvs_decode32 fuel bytes tags vals skip = Ok (-3, new)).
Proof. intros B L Sq F Sl Fu. rewrite (seq_same fuel _ _ _ _ _ B L Sq). apply (C11_tlvs_decode_failure fuel pre tag v post bytes tags vals skip); auto. lia. Qed.
Print Assumptions C95_list_failure.
Example C95_example_list : tlvs_decode32 5 [5;1;65; 3;0; 9;2;1;2] [3;4;5] (Some [mkData (Some 0) 1; mkData (Some 0) 1; mkData (Some 0) 1]) true = Ok (5, Some [mkData (Some 5) 0; mkData None 0; mkData (Some 2) 1]) /\
  tlvs_decode32 5 [5;1;65; 3;0; 5;0] [3;4;5] None true = Ok (-2, None) /\ tlvs_decode32 5 [5;1;65; 7;0; 5;0] [3;4;5] None false = Ok (-3, None).
Proof. repeat split; reflexivity. Qed.

(* Without the skip flag the loop ends after at most 32 rounds, whatever the input *)
Lemma decode32_not_nofuel r val : tlv_decode32 r val <> Fail NoFuel.
Proof.
  unfold tlv_decode32.
  destruct (unsigned_mbn_decode r (Some 0)) as [((ok, tmp), tag)|e] eqn:D; cbn [bind].
  2:{ intros X. inversion X; subst. eapply unsigned_decode_not_nofuel; eauto. }
  destruct ok, tag as [tag|]; try discriminate. destruct (tag <=? 2^31 - 1); [|discriminate].
  destruct (unsigned_mbn_decode tmp (Some 0)) as [((ok, tmp'), l)|e] eqn:D'; cbn [bind].
  2:{ intros X. inversion X; subst. eapply unsigned_decode_not_nofuel; eauto. }
  destruct ok, l as [l|]; try discriminate. destruct (_ >=? _); discriminate.
Qed.
Lemma loop32_noskip f : forall r tags vals m, (free_bits m < f)%nat ->
  tlvs_loop32 f r tags vals false m <> Fail NoFuel.
Proof.
  induction f; intros r tags vals m Hf; [lia|].
  cbn [tlvs_loop32].
  destruct (tlv_decode32 r (Some (mkData None 0))) as [((tag, r'), val)|e] eqn:D; cbn [bind].
  2:{ intros X. inversion X; subst. eapply decode32_not_nofuel; eauto. }
  destruct (tag =? 0); [discriminate|].
  destruct val as [val|]; [|discriminate].
  destruct (find_tag tags 0 tag) as [i|] eqn:Ef; [|discriminate].
  apply find_tag_spec in Ef; [|lia]. destruct Ef as (Hi & _).
  rewrite land_pow_testbit by lia. destruct (Z.testbit m i) eqn:T; [discriminate|].
  pose proof (free_bits_lor m i Hi T).
  destruct vals as [n|].
  - destruct (wr n i val) as [n'|e] eqn:W; cbn [bind].
    + apply IHf. lia.
    + unfold wr in W. destruct (_ && _) in W; congruence.
  - apply IHf. lia.
Qed.
Lemma noskip32 bytes tags vals fuel : (32 <= fuel)%nat ->
  tlvs_decode32 fuel bytes tags vals false <> Fail NoFuel.
Proof.
  intros H. unfold tlvs_decode32.
  assert (forall n v, clear_vals n v <> Fail NoFuel) as Hc.
  { induction n; intros v; cbn; [discriminate|]. destruct v; [discriminate|].
    destruct (clear_vals n v) eqn:E; cbn; [discriminate|]. intros X; inversion X; subst. eapply IHn; eauto. }
  destruct vals as [v|]; cbn [bind].
  - destruct (clear_vals (length tags) v) eqn:E; cbn [bind].
    + apply loop32_noskip. change (free_bits 0) with 31%nat. lia.
    + intros X; inversion X; subst. eapply Hc; eauto.
  - apply loop32_noskip. change (free_bits 0) with 31%nat. lia.
Qed.
Theorem C95_noskip_partial bytes tags vals fuel : (32 <= fuel)%nat -> tlvs_decode32 fuel bytes tags vals false <> Fail NoFuel.
Proof. apply noskip32. Qed.
Print Assumptions C95_noskip_partial.
(* Without long numbers it ends with a result, and only sequences of TLVs are accepted *)
Theorem C95_terminates_partial bytes tags vals skip fuel : Forall is_byte bytes -> no_long bytes -> slots_enough tags vals -> (length bytes < fuel)%nat ->
  exists code new, tlvs_decode32 fuel bytes tags vals skip = Ok (code, new) /\ (0 <= code -> exists es b1 b2, bytes = b1 ++ b2 /\ tlv_seq es b1 /\ (b2 = [] \/ exists v, tlv_of b2 0 v)).
Proof.
  intros B N Sl F. rewrite short_same by auto. destruct (C12_tlvs_decode_terminates_partial bytes tags vals skip fuel B (no_long_huge _ N) Sl F) as (c & nw & E). exists c, nw. split; [exact E|]. intros Hc.
  apply (C13_tlvs_decode_accepts_only_tlvs_partial bytes tags vals skip fuel c nw); auto. apply no_long_huge. exact N.
Qed.
Print Assumptions C95_terminates_partial.
(* numbers of less than five bytes are not long *)
Example C95_example_terminates : no_long [5;1;65;3] /\ tlvs_decode32 9 [5;1;65;3] [3;5] None false = Ok (-1, None).
Proof.
  split; [|reflexivity]. intros pre enc rest v E (_ & _ & <- & _). apply (f_equal len) in E. rewrite !len_app in E. pose proof (len_nonneg pre). pose proof (len_nonneg rest). change (len [5;1;65;3]) with 4 in E.
  assert (X : forall l a k, 0 <= a < 128 ^ k -> 0 <= k -> 0 <= fold_left (fun a b => a * 128 + b mod 128) l a < 128 ^ (k + len l)).
  { clear. induction l as [|b l IH]; intros a k A K; cbn [fold_left]; [change (len (@nil Z)) with 0; rewrite Z.add_0_r; exact A|]. rewrite len_cons. replace (k + (1 + len l)) with ((k + 1) + len l) by lia. apply IH; [|lia].
    pose proof (Z.mod_pos_bound b 128 ltac:(lia)). rewrite Z.pow_add_r by lia. lia. }
  pose proof (X enc 0 0 ltac:(cbn; lia) ltac:(lia)) as Y. unfold uval. assert (128 ^ (0 + len enc) <= 128 ^ 4) by (apply Z.pow_le_mono_r; lia). lia.
Qed.
