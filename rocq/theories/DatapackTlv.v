(* Proofs about the TLV part of the datapack model *)
From Coq Require Import ZifyBool.
From Verif Require Import Base DatapackModel DatapackSpec DatapackProofs DatapackProofs2.
Ltac Zify.zify_post_hook ::= Z.div_mod_to_equations.

Lemma mbn_shape_nonempty l : mbn_shape l -> 1 <= len l.
Proof. intros (c & t & -> & _). rewrite len_app. change (len [t]) with 1. pose proof (len_nonneg c). lia. Qed.

Lemma ubn_nonneg enc v : ubn enc v -> 0 <= v < 2^64.
Proof. intros (_ & _ & <- & H). pose proof (uval_nonneg enc). lia. Qed.

Lemma slice_app_skip {A} (l : list A) a b x y :
  slice l a b = x ++ y -> 0 <= a -> a <= b <= len l -> slice l (a + len x) b = y.
Proof.
  unfold slice, len. intros E Ha Hb.
  replace (Z.to_nat (a + Z.of_nat (length x))) with (length x + Z.to_nat a)%nat by lia.
  assert (length x <= Z.to_nat (b - a))%nat as Hx.
  { apply (f_equal (@length A)) in E. rewrite firstn_length, skipn_length, app_length in E. lia. }
  replace (Z.to_nat (b - (a + Z.of_nat (length x)))) with (Z.to_nat (b - a) - length x)%nat by lia.
  apply (f_equal (skipn (length x))) in E.
  rewrite skipn_app, skipn_all, Nat.sub_diag in E. cbn in E. rewrite <- E.
  rewrite skipn_firstn_comm. rewrite skipn_skipn'. reflexivity.
Qed.

Lemma slice_app_take {A} (l : list A) a b x y :
  slice l a b = x ++ y -> 0 <= a -> a <= b <= len l -> slice l a (a + len x) = x.
Proof.
  unfold slice, len. intros E Ha Hb.
  assert (length x <= Z.to_nat (b - a))%nat as Hx.
  { apply (f_equal (@length A)) in E. rewrite firstn_length, skipn_length, app_length in E. lia. }
  replace (Z.to_nat (a + Z.of_nat (length x) - a)) with (length x) by lia.
  apply (f_equal (firstn (length x))) in E.
  rewrite firstn_app, firstn_all, Nat.sub_diag in E. cbn in E. rewrite app_nil_r in E.
  rewrite firstn_firstn in E. rewrite Nat.min_l in E by lia. exact E.
Qed.

Lemma content_advance r enc rest : valid_range r -> content r = enc ++ rest ->
  let r' := mkRange (r_mem r) (r_ptr r + len enc) (r_end r) in
  valid_range r' /\ content r' = rest /\ r_end r - (r_ptr r + len enc) = len rest.
Proof.
  intros HV E. pose proof (content_len r enc rest HV E) as Hl.
  destruct HV as (V1 & V2 & V3). pose proof (len_nonneg enc).
  cbn. repeat split; cbn; auto; try lia.
  - unfold content in *. cbn. apply slice_app_skip with (x := enc); auto; lia.
  - unfold content in E. pose proof (slice_len (r_mem r) (r_ptr r) (r_end r) ltac:(lia) ltac:(lia)) as L.
    rewrite E, len_app in L. lia.
Qed.

Lemma ubn_dec r : valid_range r ->
  (exists enc v rest, content r = enc ++ rest /\ ubn enc v) \/
  (forall enc v, starts_with (content r) enc -> ~ ubn enc v).
Proof.
  intros HV.
  destruct (decode_head r (fun _ => Ok 0) (fun _ _ _ _ _ => Ok 1) (Ok 2) HV) as
    [(t & rst & E1 & Ht & _)|[(m & c & t & rst & E1 & Hm & Hc & Ht & Hl & _)|(N & _)]].
  - left. exists [t], t, rst. split; [exact E1|].
    split; [exists [], t; repeat split; auto; lia|].
    change (len [t]) with 1. unfold uval. cbn [fold_left]. lia.
  - destruct (Z.ltb_spec (uval (m :: c ++ [t])) (2^64)).
    + left. exists (m :: c ++ [t]), (uval (m :: c ++ [t])), rst. split.
      * rewrite E1. cbn. rewrite <- app_assoc. reflexivity.
      * split; [apply shape_many; auto|]. rewrite len_many. repeat split; lia.
    + right. intros enc v (rest & E) (S & Hlen & Hu & Hv).
      assert (enc = (m :: c) ++ [t]) as ->.
      { apply (shape_unique (m :: c) t rst enc rest); auto. cbn. congruence. }
      cbn [app] in Hu. lia.
  - right. intros enc v (rest & E) (S & Hlen & _). specialize (N enc rest E S). lia.
Qed.

Lemma ubn_unique enc1 rest1 v1 enc2 rest2 v2 :
  enc1 ++ rest1 = enc2 ++ rest2 -> ubn enc1 v1 -> ubn enc2 v2 ->
  enc1 = enc2 /\ v1 = v2 /\ rest1 = rest2.
Proof.
  intros E (S1 & _ & U1 & _) (S2 & _ & U2 & _).
  assert (enc2 = enc1) as ->.
  { destruct S1 as (c & t & -> & Hc & Ht). rewrite <- app_assoc in E. cbn in E.
    apply (shape_unique c t rest1 enc2 rest2); auto. }
  apply app_inv_head in E. split; [|split]; congruence.
Qed.

Lemma s64_small z : 0 <= z < 2^63 -> s64 z = z.
Proof. intros. apply s64_id. unfold in_s64. lia. Qed.
Lemma s64_large z : 2^63 <= z < 2^64 -> s64 z = z - 2^64.
Proof. intros. unfold s64. lia. Qed.

(* The complete behaviour of gutil_tlv_decode on a valid range *)
Lemma tlv_decode_cases r val : valid_range r ->
  (exists t tag l L rest, content r = t ++ l ++ rest /\ ubn t tag /\ tag <= 2^31 - 1 /\
     ubn l L /\ s64 L <= len rest /\
     tlv_decode r val = Ok (tag, mkRange (r_mem r) (r_ptr r + len t + len l + s64 L) (r_end r),
        store val (mkData (Some (r_ptr r + len t + len l)) L))) \/
  (tlv_decode r val = Ok (0, r, val) /\
   forall t tag l L rest, content r = t ++ l ++ rest -> ubn t tag -> tag <= 2^31 - 1 ->
     ubn l L -> s64 L <= len rest -> False).
Proof.
  intros HV. unfold tlv_decode.
  destruct (ubn_dec r HV) as [(t & tag & rest & E & Ht)|No].
  2:{ right. rewrite unsigned_decode_reject by assumption. cbn [bind]. split; auto.
      intros t tag l L rest E Ht _ _ _. apply (No t tag); auto. exists (l ++ rest). exact E. }
  rewrite (unsigned_decode_accept r (Some 0) t tag HV (ex_intro _ rest E) Ht). cbn [bind option_map].
  destruct (content_advance r t rest HV E) as (HV' & E' & _).
  destruct (Z.leb_spec tag (2^31 - 1)) as [Htag|Htag].
  2:{ right. split; auto. intros t' tag' l L rest' E'' Ht' Htag' _ _.
      rewrite E in E''. destruct (ubn_unique _ _ _ _ _ _ E'' Ht Ht') as (_ & <- & _). lia. }
  set (r' := mkRange _ _ _) in *.
  destruct (ubn_dec r' HV') as [(l & L & rest2 & E2 & Hl)|No].
  2:{ right. rewrite unsigned_decode_reject by assumption. cbn [bind]. split; auto.
      intros t' tag' l L rest' E'' Ht' _ Hl _.
      rewrite E in E''. destruct (ubn_unique _ _ _ _ _ _ E'' Ht Ht') as (-> & <- & ->).
      apply (No l L); auto. exists rest'. exact E'. }
  rewrite (unsigned_decode_accept r' (Some 0) l L HV' (ex_intro _ rest2 E2) Hl). cbn [bind option_map].
  destruct (content_advance r' l rest2 HV' E2) as (HV2 & _ & El).
  subst r'. cbn [r_mem r_ptr r_end] in *.
  rewrite El.
  destruct (Z.geb_spec (len rest2) (s64 L)) as [Hok|Hbad].
  - left. exists t, tag, l, L, rest2. repeat split; auto; try apply Ht; try apply Hl; try congruence.
    rewrite u32_id; auto. pose proof (ubn_nonneg _ _ Ht). unfold in_u32. lia.
  - right. split; auto.
    intros t' tag' l' L' rest' E'' Ht' _ Hl' Hs'.
    rewrite E in E''. destruct (ubn_unique _ _ _ _ _ _ E'' Ht Ht') as (-> & <- & ->).
    rewrite E' in E2. destruct (ubn_unique _ _ _ _ _ _ E2 Hl' Hl) as (-> & <- & ->). lia.
Qed.

Lemma tlv_decode_accept r val enc tag v rest :
  valid_range r -> content r = enc ++ rest -> tlv_of enc tag v -> tag <= 2^31 - 1 -> len v < 2^63 ->
  tlv_decode r val =
    Ok (tag, mkRange (r_mem r) (r_ptr r + len enc) (r_end r),
        store val (mkData (Some (r_ptr r + len enc - len v)) (len v))) /\
  slice (r_mem r) (r_ptr r + len enc - len v) (r_ptr r + len enc) = v /\
  r_ptr r <= r_ptr r + len enc - len v.
Proof.
  intros HV E (t & l & Ht & Hl & ->) Htag Hv.
  rewrite <- !app_assoc in E.
  pose proof (s64_small (len v) ltac:(pose proof (len_nonneg v); lia)) as Es.
  destruct (content_advance r t _ HV E) as (HV1 & E1 & _).
  set (r1 := mkRange _ _ _) in *.
  destruct (content_advance r1 l _ HV1 E1) as (HV2 & E2 & _).
  subst r1. cbn [r_mem r_ptr r_end] in *.
  destruct (tlv_decode_cases r val HV) as [(t' & tag' & l' & L & rest' & E' & Ht' & _ & Hl' & Hs & R)|(R & N)].
  - rewrite R. rewrite E in E'.
    destruct (ubn_unique _ _ _ _ _ _ E' Ht Ht') as (<- & <- & E'').
    destruct (ubn_unique _ _ _ _ _ _ E'' Hl Hl') as (<- & <- & E3).
    rewrite Es. rewrite !len_app. split.
    + replace (r_ptr r + (len t + (len l + len v))) with (r_ptr r + len t + len l + len v) by lia.
      do 4 f_equal. f_equal. lia.
    + replace (r_ptr r + (len t + (len l + len v)) - len v) with (r_ptr r + len t + len l) by lia.
      replace (r_ptr r + (len t + (len l + len v))) with (r_ptr r + len t + len l + len v) by lia.
      unfold content in E2. cbn in E2. destruct HV2 as (V1 & V2 & _). cbn in V1, V2.
      split; [apply (slice_app_take _ _ _ _ _ E2); lia|].
      pose proof (len_nonneg t). pose proof (len_nonneg l). lia.
  - exfalso. apply (N t tag l (len v) (v ++ rest)); auto.
    rewrite Es, len_app. pose proof (len_nonneg rest). lia.
Qed.

(* ---------- encoder ---------- *)

Lemma copy_to_spec bytes : forall pre mid post, length mid = length bytes ->
  copy_to (pre ++ mid ++ post) (len pre) bytes = Ok (pre ++ bytes ++ post).
Proof.
  induction bytes as [|b bytes IH]; intros pre mid post Hl.
  - destruct mid; [reflexivity|discriminate].
  - destruct mid as [|m mid]; [discriminate|]. cbn [copy_to].
    rewrite wr_in.
    2:{ cbn [app]. rewrite len_app, len_cons. pose proof (len_nonneg pre).
        pose proof (len_nonneg (mid ++ post)). lia. }
    cbn [bind]. unfold len at 1. rewrite Nat2Z.id, upd_app_r by lia.
    rewrite Nat.sub_diag. cbn [app upd].
    replace (len pre + 1) with (len (pre ++ [b])) by (rewrite len_app; reflexivity).
    replace (pre ++ b :: mid ++ post) with ((pre ++ [b]) ++ mid ++ post) by (rewrite <- app_assoc; reflexivity).
    rewrite IH by (cbn in Hl; lia). rewrite <- app_assoc. reflexivity.
Qed.

Lemma unsigned_encode_spec pre mid post v n : in_u64 v -> unsigned_mbn_size v = Ok n -> len mid = n ->
  unsigned_mbn_encode (pre ++ mid ++ post) (len pre) v = Ok (pre ++ enc_bytes v n ++ post, n).
Proof.
  intros Hv Hn Hm. unfold unsigned_mbn_encode. rewrite Hn. cbn [bind].
  destruct (unsigned_size_spec v Hv) as (n' & E & (H1 & _) & _). rewrite Hn in E. inversion E; subst.
  apply unsigned_encode2_spec; auto.
Qed.

Lemma enc_bytes_ubn v n : in_u64 v -> fits_u v n -> 1 <= n <= 10 -> ubn (enc_bytes v n) v.
Proof.
  intros Hv Hf Hn. split; [apply enc_bytes_shape|]. rewrite enc_bytes_len by lia.
  rewrite enc_bytes_val by lia. unfold fits_u in Hf. rewrite pow128 by lia.
  unfold in_u64 in Hv. rewrite Z.mod_small by lia. lia.
Qed.

Lemma app_split3 {A} (l : list A) a b : 0 <= a -> 0 <= b -> len l = a + b ->
  exists x y, l = x ++ y /\ len x = a /\ len y = b.
Proof.
  intros. exists (firstn (Z.to_nat a) l), (skipn (Z.to_nat a) l).
  rewrite firstn_skipn. unfold len in *. rewrite firstn_length, skipn_length. repeat split; lia.
Qed.

Lemma tlv_encode_spec pre mid post tag (val : option (list Z)) v a b :
  0 <= tag < 2^32 -> len v < 2^63 ->
  match val with Some x => x = v | None => v = [] end ->
  unsigned_mbn_size tag = Ok a -> unsigned_mbn_size (len v) = Ok b ->
  len mid = a + b + len v ->
  tlv_encode (pre ++ mid ++ post) (len pre) tag val =
  Ok (pre ++ (enc_bytes tag a ++ enc_bytes (len v) b ++ v) ++ post, a + b + len v).
Proof.
  intros Ht Hv Hval Ha Hb Hm. pose proof (len_nonneg v).
  assert (in_u64 tag) as Ht64 by (unfold in_u64; lia).
  assert (in_u64 (len v)) as Hv64 by (unfold in_u64; lia).
  destruct (unsigned_size_spec tag Ht64) as (a' & Ea & (A1 & A2 & _) & A10).
  rewrite Ha in Ea. inversion Ea; subst a'.
  destruct (unsigned_size_spec (len v) Hv64) as (b' & Eb & (B1 & B2 & _) & B10).
  rewrite Hb in Eb. inversion Eb; subst b'.
  destruct (app_split3 mid a (b + len v)) as (m1 & m' & -> & L1 & L'); try lia.
  destruct (app_split3 m' b (len v)) as (m2 & m3 & -> & L2 & L3); try lia.
  unfold tlv_encode.
  rewrite <- app_assoc.
  rewrite (unsigned_encode_spec pre m1 ((m2 ++ m3) ++ post) tag a) by auto. cbn [bind].
  assert (u32 (a + b) = a + b) as Eab by (apply u32_id; unfold in_u32; lia).
  assert (u64 (a + b + len v) = a + b + len v) as Etot by (apply u64_id; unfold in_u64; lia).
  set (T := enc_bytes tag a).
  assert (len (pre ++ T) = len pre + a) as LT by (unfold T; rewrite len_app, enc_bytes_len; lia).
  destruct v as [|x v].
  - assert (b = 1) as ->.
    { cbn in Hb. inversion Hb. reflexivity. }
    destruct m3; [|rewrite len_cons in L3; pose proof (len_nonneg m3); change (len (@nil Z)) with 0 in *; lia].
    destruct m2 as [|m2 [|]]; try (unfold len in L2; cbn in L2; lia).
    assert (match val with Some (_ :: _) => False | _ => True end) as Hv'.
    { destruct val as [[|]|]; auto. discriminate. }
    replace (pre ++ T ++ ([m2] ++ []) ++ post) with ((pre ++ T) ++ m2 :: post)
      by (rewrite <- app_assoc; reflexivity).
    assert ((do buf <- wr ((pre ++ T) ++ m2 :: post) (len pre + a) 0; Ok (buf, u64 (u32 (a + 1)))) =
       Ok (pre ++ (T ++ enc_bytes (len (@nil Z)) 1 ++ []) ++ post, a + 1 + len (@nil Z))) as R.
    { rewrite wr_in.
      2:{ rewrite <- LT, (len_app (pre ++ T)), len_cons. pose proof (len_nonneg (pre ++ T)). pose proof (len_nonneg post). lia. }
      cbn [bind]. rewrite <- LT. unfold len at 1. rewrite Nat2Z.id, upd_app_r by lia.
      rewrite Nat.sub_diag. cbn [upd]. change (enc_bytes (len (@nil Z)) 1) with [0].
      change (len (@nil Z)) with 0 in *. rewrite <- !app_assoc. cbn [app].
      rewrite Eab, u64_id by (unfold in_u64; lia). do 2 f_equal. lia. }
    destruct val as [[|]|]; try exact R. destruct Hv'.
  - destruct val as [y|]; [|discriminate]. subst y.
    replace (pre ++ T ++ (m2 ++ m3) ++ post) with ((pre ++ T) ++ m2 ++ (m3 ++ post))
      by (rewrite <- !app_assoc; reflexivity).
    rewrite <- LT.
    rewrite (unsigned_encode_spec (pre ++ T) m2 (m3 ++ post) (len (x :: v)) b) by auto. cbn [bind].
    set (V := x :: v) in *. set (Lb := enc_bytes (len V) b).
    replace (len (pre ++ T) + b) with (len ((pre ++ T) ++ Lb)).
    2:{ rewrite (len_app (pre ++ T)). unfold Lb. rewrite enc_bytes_len; lia. }
    replace ((pre ++ T) ++ Lb ++ m3 ++ post) with (((pre ++ T) ++ Lb) ++ m3 ++ post)
      by (rewrite <- !app_assoc; reflexivity).
    rewrite copy_to_spec by (unfold len in L3; lia). cbn [bind].
    rewrite Eab, Etot. rewrite <- !app_assoc. reflexivity.
Qed.

Lemma tlv_size_spec tag l a b : unsigned_mbn_size tag = Ok a -> unsigned_mbn_size l = Ok b ->
  0 <= tag < 2^32 -> in_u64 l -> tlv_size tag l = Ok ((a + b + l) mod 2^32).
Proof.
  intros Ha Hb Ht Hl. unfold tlv_size. rewrite Ha, Hb. cbn [bind].
  destruct (unsigned_size_spec tag) as (a' & Ea & (A1 & _) & A10); [unfold in_u64; lia|].
  rewrite Ha in Ea. inversion Ea; subst a'.
  destruct (unsigned_size_spec l Hl) as (b' & Eb & (B1 & _) & B10).
  rewrite Hb in Eb. inversion Eb; subst b'.
  rewrite (u32_id (a + b)) by (unfold in_u32; lia).
  f_equal. unfold u32, u64. unfold in_u64 in Hl. lia.
Qed.

(* ---------- lists of TLVs ---------- *)

Lemma find_tag_spec tags : forall i t j, 0 <= i ->
  find_tag tags i t = Some j <->
  (i <= j < 31 /\ first_at tags (Z.to_nat (j - i)) t).
Proof.
  induction tags as [|x tags IH]; intros i t j Hi; cbn [find_tag].
  - split; [discriminate|]. intros (_ & H & _). destruct (Z.to_nat (j - i)); discriminate.
  - destruct (Z.ltb_spec i 31) as [H31|H31].
    2:{ split; [discriminate|]. intros (H & _). lia. }
    destruct (Z.eqb_spec x t) as [->|Hne].
    + split.
      * intros E. inversion E; subst. split; [lia|]. rewrite Z.sub_diag. split; [reflexivity|]. cbn. auto.
      * intros (Hj & H1 & H2). f_equal. destruct (Z.to_nat (j - i)) eqn:En; [lia|].
        exfalso. apply H2. cbn. auto.
    + rewrite IH by lia. split.
      * intros (Hj & H1 & H2). split; [lia|].
        replace (Z.to_nat (j - i)) with (S (Z.to_nat (j - (i + 1)))) by lia.
        split; [exact H1|]. cbn. intros [?|?]; congruence.
      * intros (Hj & H1 & H2).
        destruct (Z.to_nat (j - i)) as [|n] eqn:En.
        -- cbn in H1. congruence.
        -- split; [lia|]. replace (Z.to_nat (j - (i + 1))) with n by lia.
           split; [exact H1|]. intros Hin. apply H2. cbn. auto.
Qed.

Lemma find_tag_none tags : forall i t, 0 <= i <= 31 ->
  find_tag tags i t = None -> ~ In t (firstn (Z.to_nat (31 - i)) tags).
Proof.
  induction tags as [|x tags IH]; intros i t Hi; cbn [find_tag].
  - intros _. rewrite firstn_nil. auto.
  - destruct (Z.ltb_spec i 31) as [H31|H31].
    + destruct (Z.eqb_spec x t) as [->|Hne]; [discriminate|].
      intros E. replace (Z.to_nat (31 - i)) with (S (Z.to_nat (31 - (i + 1)))) by lia.
      cbn. intros [?|H]; [congruence|]. revert H. apply IH; auto. lia.
    + intros _. replace (Z.to_nat (31 - i)) with O by lia. cbn. auto.
Qed.

Lemma find_tag_requested tags t : (exists i, find_tag tags 0 t = Some i) <-> requested tags t.
Proof.
  unfold requested. split.
  - intros (i & E). apply find_tag_spec in E; [|lia]. destruct E as (Hi & H1 & _).
    rewrite Z.sub_0_r in H1.
    apply nth_error_In with (n := Z.to_nat i).
    rewrite <- H1. clear H1. assert (Z.to_nat i < 31)%nat as H by lia.
    revert H. generalize (Z.to_nat i) as n, 31%nat as m. intros n m. revert n tags.
    induction m; intros n tags H; [lia|]. destruct tags, n; cbn; auto. apply IHm. lia.
  - intros H. destruct (find_tag tags 0 t) eqn:E; [eauto|]. exfalso.
    apply find_tag_none in E; [|lia]. auto.
Qed.

Lemma first_at_inj tags i t u : first_at tags i t -> first_at tags i u -> t = u.
Proof. intros (H1 & _) (H2 & _). congruence. Qed.

Lemma land_pow_testbit m i : 0 <= i -> negb (Z.land m (2^i) =? 0) = Z.testbit m i.
Proof.
  intros Hi. destruct (Z.testbit m i) eqn:T.
  - destruct (Z.eqb_spec (Z.land m (2^i)) 0) as [E|]; auto.
    apply (f_equal (fun z => Z.testbit z i)) in E.
    rewrite Z.land_spec, T, Z.pow2_bits_true, Z.bits_0 in E by lia. discriminate.
  - assert (Z.land m (2^i) = 0) as ->; auto.
    apply Z.bits_inj'. intros n Hn. rewrite Z.land_spec, Z.bits_0, Z.pow2_bits_eqb by lia.
    destruct (Z.eqb_spec i n) as [->|]; [rewrite T|rewrite andb_false_r]; reflexivity.
Qed.

Lemma lor_pow_testbit m i j : 0 <= i -> Z.testbit (Z.lor m (2^i)) j = Z.testbit m j || (i =? j).
Proof. intros. rewrite Z.lor_spec, Z.pow2_bits_eqb by lia. reflexivity. Qed.

Definition state_ok mem tags skip es old m new : Prop :=
  fine tags skip es /\ mask_ok tags es m /\ vals_ok mem tags es old new.

Lemma fine_app tags skip es t v :
  fine tags skip es -> (requested tags t -> ~ In t (map fst es)) -> (skip = true \/ requested tags t) ->
  fine tags skip (es ++ [(t, v)]).
Proof.
  intros (F1 & F2) Hd Hs. split.
  - intros u pre post E R. rewrite map_app in E. cbn in E.
    destruct (exists_last (l := u :: post)) as (post' & y & Ey); [discriminate|].
    rewrite Ey, app_assoc in E. apply app_inj_tail in E. destruct E as [E ->].
    destruct post' as [|z post'].
    + cbn in Ey. inversion Ey; subst. rewrite app_nil_r in E. subst. apply Hd; auto.
    + cbn in Ey. inversion Ey; subst. apply (F1 z pre post'); auto.
  - destruct Hs as [Hs|Hs]; [left; auto|]. destruct F2 as [F2|F2]; [left; auto|].
    right. intros u. rewrite map_app, in_app_iff. cbn [map fst In]. intros [H|[<-|[]]]; auto.
Qed.

Lemma testbit_bound m n : 0 <= m -> 0 <= n -> (forall i, n <= i -> Z.testbit m i = false) -> m < 2^n.
Proof.
  intros Hm Hn H. destruct (Z.ltb_spec m (2^n)); auto. exfalso.
  assert (0 < m) as Hp. { assert (0 < 2^n) by (apply Z.pow_pos_nonneg; lia). lia. }
  pose proof (Z.bit_log2 m Hp) as B. rewrite H in B; [discriminate|].
  apply Z.log2_le_pow2; lia.
Qed.

Lemma mask_ok_add tags es m i t v :
  mask_ok tags es m -> 0 <= i < 31 -> first_at tags (Z.to_nat i) t ->
  mask_ok tags (es ++ [(t, v)]) (Z.lor m (2^i)).
Proof.
  intros (R & B) Hi Hf.
  assert (forall j, 0 <= j -> (Z.testbit (Z.lor m (2^i)) j = true <->
     exists u, j < 31 /\ first_at tags (Z.to_nat j) u /\ In u (map fst (es ++ [(t, v)])))) as B'.
  { intros j Hj. rewrite lor_pow_testbit by lia. rewrite orb_true_iff, B by assumption.
    split.
    - intros [(u & H1 & H2 & H3)|E].
      + exists u. rewrite map_app, in_app_iff. auto.
      + apply Z.eqb_eq in E. subst j. exists t. rewrite map_app, in_app_iff. cbn. split; [lia|]. auto.
    - intros (u & H1 & H2 & H3). rewrite map_app, in_app_iff in H3. cbn in H3.
      destruct H3 as [H3|[<-|[]]]; [left; eauto|]. right. apply Z.eqb_eq.
      destruct Hf as (N1 & N2), H2 as (M1 & M2).
      destruct (Nat.lt_trichotomy (Z.to_nat i) (Z.to_nat j)) as [H|[H|H]]; try lia; exfalso.
      + apply M2. apply nth_error_In with (n := Z.to_nat i).
        rewrite <- N1. clear - H. revert tags H. generalize (Z.to_nat i) as a, (Z.to_nat j) as b.
        intros a b; revert a; induction b; intros a tags H; [lia|]. destruct tags, a; cbn; auto. apply IHb. lia.
      + apply N2. apply nth_error_In with (n := Z.to_nat j).
        rewrite <- M1. clear - H. revert tags H. generalize (Z.to_nat j) as a, (Z.to_nat i) as b.
        intros a b; revert a; induction b; intros a tags H; [lia|]. destruct tags, a; cbn; auto. apply IHb. lia. }
  split; [|exact B'].
  assert (0 <= Z.lor m (2^i)) as Hnn. { apply Z.lor_nonneg. split; [lia|]. apply Z.pow_nonneg. lia. }
  split; auto. apply testbit_bound; auto; try lia.
  intros j Hj. destruct (Z.testbit (Z.lor m (2^i)) j) eqn:T; auto.
  apply B' in T; [|lia]. destruct T as (u & H & _). lia.
Qed.

Lemma mask_ok_skip tags es m t v :
  mask_ok tags es m -> ~ requested tags t -> mask_ok tags (es ++ [(t, v)]) m.
Proof.
  intros (R & B) Hn. split; auto. intros i Hi. rewrite B by assumption.
  split; intros (u & H1 & H2 & H3); exists u; repeat split; auto; try apply H2.
  - rewrite map_app, in_app_iff. auto.
  - rewrite map_app, in_app_iff in H3. cbn in H3. destruct H3 as [|[<-|[]]]; auto.
    exfalso. apply Hn. apply find_tag_requested. exists i. apply find_tag_spec; [lia|].
    rewrite Z.sub_0_r. split; [lia|]. exact H2.
Qed.

Lemma first_at_same tags i j t : first_at tags i t -> first_at tags j t -> i = j.
Proof.
  intros (N1 & N2) (M1 & M2).
  assert (forall a b, (a < b)%nat -> nth_error tags a = Some t -> In t (firstn b tags)) as A.
  { intros a b H E. apply nth_error_In with (n := a). rewrite <- E. clear - H. revert a tags H.
    induction b; intros a tags H; [lia|]. destruct tags, a; cbn; auto. apply IHb. lia. }
  destruct (Nat.lt_trichotomy i j) as [H|[H|H]]; auto; exfalso; eauto.
Qed.

Lemma vals_ok_skip mem tags es old new t v :
  vals_ok mem tags es old new -> ~ requested tags t -> vals_ok mem tags (es ++ [(t, v)]) old new.
Proof.
  unfold vals_ok. destruct old as [o|], new as [n|]; auto.
  intros (L & H) Hn. split; auto. intros i Hi. destruct (H i Hi) as (A & B & C).
  assert (forall u, first_at tags i u -> (i < 31)%nat -> u <> t) as Hu.
  { intros u F H31 ->. apply Hn. apply find_tag_requested. exists (Z.of_nat i).
    apply find_tag_spec; [lia|]. rewrite Z.sub_0_r, Nat2Z.id. split; [lia|auto]. }
  repeat split; auto.
  - intros u w F H31 Hin. apply in_app_iff in Hin. cbn in Hin.
    destruct Hin as [Hin|[E|[]]]; [eauto|]. inversion E; subst. exfalso. eapply Hu; eauto.
  - intros Hlt Hno. apply B; auto. intros u F H31 Hin. apply (Hno u F H31).
    rewrite map_app, in_app_iff. auto.
Qed.

Lemma vals_ok_add mem tags es o n i t v d :
  vals_ok mem tags es (Some o) (Some n) -> 0 <= i < 31 -> first_at tags (Z.to_nat i) t ->
  ~ In t (map fst es) -> holds mem d v -> (Z.to_nat i < length o)%nat ->
  vals_ok mem tags (es ++ [(t, v)]) (Some o) (Some (upd n (Z.to_nat i) d)).
Proof.
  intros (L & H) Hi Hf Hnew Hd Hlen. split; [rewrite upd_length; auto|].
  intros j Hj. destruct (H j Hj) as (A & B & C).
  destruct (Nat.eq_dec j (Z.to_nat i)) as [->|Hne].
  - rewrite nth_error_upd_eq by lia. repeat split.
    + intros u w F H31 Hin. exists d. split; auto.
      pose proof (first_at_inj _ _ _ _ Hf F). subst u.
      apply in_app_iff in Hin. cbn in Hin. destruct Hin as [Hin|[E|[]]].
      * exfalso. apply Hnew. apply in_map_iff. exists (t, w). auto.
      * inversion E; subst. exact Hd.
    + intros _ Hno. exfalso. apply (Hno t Hf ltac:(lia)). rewrite map_app, in_app_iff. cbn. auto.
    + intros Hge. exfalso. destruct Hf as (N1 & _).
      assert (Z.to_nat i < length tags)%nat by (apply nth_error_Some; congruence). lia.
  - rewrite nth_error_upd_ne by lia. repeat split; auto.
    + intros u w F H31 Hin. apply in_app_iff in Hin. cbn in Hin.
      destruct Hin as [Hin|[E|[]]]; [eauto|]. inversion E; subst. exfalso. apply Hne.
      eapply first_at_same; eauto.
    + intros Hlt Hno. apply B; auto. intros u F H31 Hin. apply (Hno u F H31).
      rewrite map_app, in_app_iff. auto.
Qed.

Lemma tlv_seq_len es bytes : tlv_seq es bytes -> Forall (fun e => len (snd e) <= len bytes) es.
Proof.
  induction 1 as [|tag v enc es bytes Ht He Hs IH]; constructor.
  - cbn. destruct He as (t & l & _ & _ & ->). rewrite !len_app.
    pose proof (len_nonneg t). pose proof (len_nonneg l). pose proof (len_nonneg bytes). lia.
  - eapply Forall_impl; [|exact IH]. intros e H. cbn in *. rewrite len_app. pose proof (len_nonneg enc). lia.
Qed.

Lemma tlv_decode_empty r val : valid_range r -> content r = [] -> tlv_decode r val = Ok (0, r, val).
Proof.
  intros HV E. destruct (tlv_decode_cases r val HV) as [(t & tag & l & L & rest & E' & Ht & _)|(R & _)]; auto.
  exfalso. rewrite E in E'. destruct Ht as (S & _). apply mbn_shape_nonempty in S.
  symmetry in E'. apply app_eq_nil in E'. destruct E' as (-> & _). cbn in S. lia.
Qed.

(* One iteration on an input that starts with a TLV *)
Lemma tlvs_step f r tags new skip m tag v enc rest :
  valid_range r -> content r = enc ++ rest -> tlv_of enc tag v -> 1 <= tag <= 2^31 - 1 -> len v < 2^63 ->
  exists d r', r' = mkRange (r_mem r) (r_ptr r + len enc) (r_end r) /\
    valid_range r' /\ content r' = rest /\ holds (r_mem r) d v /\
    tlvs_loop (S f) r tags new skip m =
      match find_tag tags 0 tag with
      | Some i =>
          if Z.testbit m i then Ok (TLVS_DUPLICATE_TAG, new)
          else match new with
               | Some n => do n <- wr n i d; tlvs_loop f r' tags (Some n) skip (Z.lor m (2^i))
               | None => tlvs_loop f r' tags None skip (Z.lor m (2^i))
               end
      | None => if skip then tlvs_loop f r' tags new skip m else Ok (TLVS_UNKNOWN_TAG, new)
      end.
Proof.
  intros HV E He Ht Hv.
  destruct (tlv_decode_accept r (Some (mkData None 0)) enc tag v rest HV E He ltac:(lia) Hv) as (R & Hsl & Hge).
  destruct (content_advance r enc rest HV E) as (HV' & E' & _).
  exists (mkData (Some (r_ptr r + len enc - len v)) (len v)), (mkRange (r_mem r) (r_ptr r + len enc) (r_end r)).
  split; auto. split; auto. split; auto. split.
  - exists (r_ptr r + len enc - len v). split; auto. destruct HV as (V1 & V2 & _). destruct HV' as (V3 & V4 & _).
    cbn in V4. repeat split; try lia.
    replace (r_ptr r + len enc - len v + len v) with (r_ptr r + len enc) by lia. exact Hsl.
  - cbn [tlvs_loop]. rewrite R. cbn [bind store]. replace (tag =? 0) with false by lia.
    destruct (find_tag tags 0 tag) as [i|] eqn:Ef; auto.
    apply find_tag_spec in Ef; [|lia]. rewrite land_pow_testbit by lia. reflexivity.
Qed.

Lemma mask_bit tags es m i t : mask_ok tags es m -> 0 <= i < 31 -> first_at tags (Z.to_nat i) t ->
  (Z.testbit m i = true <-> In t (map fst es)).
Proof.
  intros (_ & B) Hi Hf. rewrite B by lia. split.
  - intros (u & _ & F & Hin). rewrite (first_at_inj _ _ _ _ Hf F). exact Hin.
  - intros Hin. exists t. repeat split; auto; try lia; apply Hf.
Qed.

(* Fine entries: the loop gets to the end of them *)
Lemma tlvs_loop_run todo : forall f r done skip tags old m new bytes rest,
  valid_range r -> content r = bytes ++ rest -> tlv_seq todo bytes ->
  len (r_mem r) < 2^63 ->
  state_ok (r_mem r) tags skip done old m new -> slots_enough tags old ->
  fine tags skip (done ++ todo) ->
  exists r' m' new', tlvs_loop (length todo + f) r tags new skip m = tlvs_loop f r' tags new' skip m' /\
    valid_range r' /\ content r' = rest /\ r_mem r' = r_mem r /\
    state_ok (r_mem r) tags skip (done ++ todo) old m' new'.
Proof.
  induction todo as [|(tag, v) todo IH]; intros f r done skip tags old m new bytes rest HV E Hseq Hbig Hst Hsl Hfine.
  - inversion Hseq; subst. cbn [app] in E. exists r, m, new. rewrite app_nil_r. cbn [length Nat.add]. split; [reflexivity|]. auto.
  - inversion Hseq as [|? ? enc ? bytes' Ht He Hs]; subst. rewrite <- app_assoc in E.
    assert (len v < 2^63) as Hv.
    { assert (len v <= len (r_mem r)); [|lia].
      pose proof (content_len r _ _ HV E) as Hc. destruct HV as (V1 & V2 & _).
      destruct He as (t & l & _ & _ & ->). rewrite !len_app in Hc.
      pose proof (len_nonneg t). pose proof (len_nonneg l). lia. }
    cbn [length Nat.add].
    destruct (tlvs_step (length todo + f) r tags new skip m tag v enc (bytes' ++ rest) HV E He Ht Hv)
      as (d & r' & Er' & HV' & E' & Hd & R).
    rewrite R. clear R.
    assert (r_mem r' = r_mem r) as Em by (rewrite Er'; reflexivity).
    assert (done ++ (tag, v) :: todo = (done ++ [(tag, v)]) ++ todo) as Ea by (rewrite <- app_assoc; reflexivity).
    rewrite Ea in Hfine |- *.
    destruct Hst as (F & M & Vs).
    assert (requested tags tag -> ~ In tag (map fst done)) as Hnd.
    { intros Hr. destruct Hfine as (F1 & _). apply (F1 tag (map fst done) (map fst todo)); auto.
      rewrite <- app_assoc. cbn. rewrite map_app. reflexivity. }
    assert (skip = true \/ requested tags tag) as Hsr.
    { destruct Hfine as (_ & [F2|F2]); auto. right. apply F2. rewrite !map_app, !in_app_iff. cbn. auto. }
    pose proof (fine_app tags skip done tag v F Hnd Hsr) as F'.
    destruct (find_tag tags 0 tag) as [i|] eqn:Ef.
    + assert (requested tags tag) as Hr by (apply find_tag_requested; eauto).
      apply find_tag_spec in Ef; [|lia]. rewrite Z.sub_0_r in Ef. destruct Ef as (Hi & Hf).
      destruct (Z.testbit m i) eqn:T.
      { exfalso. apply (mask_bit tags done m i tag) in T; auto. apply Hnd in T; auto. }
      pose proof (mask_ok_add tags done m i tag v M Hi Hf) as M'.
      destruct new as [n|].
      * destruct old as [o|]; [|destruct Vs].
        assert (Z.to_nat i < length o)%nat as Hio.
        { cbn in Hsl. destruct Hf as (N1 & _).
          assert (Z.to_nat i < length tags)%nat by (apply nth_error_Some; congruence). lia. }
        rewrite wr_in by (destruct Vs as (L & _); unfold len; lia). cbn [bind].
        destruct (IH f r' (done ++ [(tag, v)]) skip tags (Some o) (Z.lor m (2^i)) (Some (upd n (Z.to_nat i) d)) bytes' rest)
          as (r2 & m2 & n2 & R2 & A & B & C & D); auto; try (rewrite Em; auto).
        -- split; auto. split; auto. apply vals_ok_add; auto.
        -- exists r2, m2, n2. rewrite Em in *. auto.
      * destruct (IH f r' (done ++ [(tag, v)]) skip tags old (Z.lor m (2^i)) None bytes' rest)
          as (r2 & m2 & n2 & R2 & A & B & C & D); auto; try (rewrite Em; auto).
        -- split; auto.
        -- exists r2, m2, n2. rewrite Em in *. auto.
    + assert (~ requested tags tag) as Hr.
      { intros Hr. apply find_tag_requested in Hr. destruct Hr as (i & Hi). congruence. }
      destruct Hsr as [->|]; [|contradiction].
      destruct (IH f r' (done ++ [(tag, v)]) true tags old m new bytes' rest)
        as (r2 & m2 & n2 & R2 & A & B & C & D); auto; try (rewrite Em; auto).
      * split; auto. split; [apply mask_ok_skip; auto|apply vals_ok_skip; auto].
      * exists r2, m2, n2. rewrite Em in *. auto.
Qed.

Lemma clear_vals_ok n : forall vals, (n <= length vals)%nat ->
  clear_vals n vals = Ok (repeat (mkData None 0) n ++ skipn n vals).
Proof.
  induction n; intros vals H; cbn; auto. destruct vals as [|x vals]; cbn in *; [lia|].
  rewrite IHn by lia. reflexivity.
Qed.

Definition start_vals (tags : list Z) (old : option (list data)) : option (list data) :=
  match old with
  | Some o => Some (repeat (mkData None 0) (length tags) ++ skipn (length tags) o)
  | None => None
  end.

Lemma tlvs_decode_start fuel bytes tags old skip : slots_enough tags old ->
  tlvs_decode fuel bytes tags old skip = tlvs_loop fuel (whole bytes) tags (start_vals tags old) skip 0.
Proof.
  intros H. unfold tlvs_decode. destruct old as [o|]; cbn [bind start_vals]; auto.
  rewrite clear_vals_ok by exact H. reflexivity.
Qed.

Lemma start_state mem tags skip old : slots_enough tags old ->
  state_ok mem tags skip [] old 0 (start_vals tags old).
Proof.
  intros H. split; [|split].
  - split; [|right; intros t []]. intros t pre post E. destruct pre; discriminate.
  - split; [lia|]. intros i Hi. rewrite Z.bits_0. split; [discriminate|]. intros (t & _ & _ & []).
  - unfold vals_ok. destruct old as [o|]; cbn [start_vals]; auto. cbn in H. split.
    { rewrite app_length, repeat_length, skipn_length. lia. }
    intros i Hi. repeat split.
    + intros t v _ _ [].
    + intros Hlt _. rewrite nth_error_app1 by (rewrite repeat_length; lia).
      apply nth_error_repeat. lia.
    + intros Hge. rewrite nth_error_app2 by (rewrite repeat_length; lia). rewrite repeat_length.
      clear Hi H. revert o i Hge. induction (length tags); intros o i Hge; cbn; [f_equal; lia|].
      destruct o, i; cbn; auto; try lia; [destruct (i - n)%nat; reflexivity|]. apply IHn. lia.
Qed.

Lemma valid_whole bytes : Forall is_byte bytes -> valid_range (whole bytes).
Proof. intros. unfold whole. repeat split; cbn; auto; pose proof (len_nonneg bytes); lia. Qed.

Lemma content_whole bytes : content (whole bytes) = bytes.
Proof.
  unfold content, whole, slice. cbn. rewrite Z.sub_0_r. unfold len. rewrite Nat2Z.id. apply firstn_all.
Qed.

Lemma tlvs_fine fuel es bytes tags old skip :
  Forall is_byte bytes -> len bytes < 2^63 -> tlv_seq es bytes -> fine tags skip es ->
  slots_enough tags old -> (length es < fuel)%nat ->
  exists m new, tlvs_decode fuel bytes tags old skip = Ok (m, new) /\
    mask_ok tags es m /\ vals_ok bytes tags es old new.
Proof.
  intros Hb Hl Hs Hf Hsl Hfuel. rewrite tlvs_decode_start by assumption.
  replace fuel with (length es + S (fuel - length es - 1))%nat by lia.
  destruct (tlvs_loop_run es (S (fuel - length es - 1)) (whole bytes) [] skip tags old 0 (start_vals tags old) bytes [])
    as (r' & m' & new' & R & HV' & C' & M' & (_ & Hm & Hv)).
  - apply valid_whole; auto.
  - rewrite content_whole, app_nil_r. reflexivity.
  - exact Hs.
  - exact Hl.
  - apply start_state; auto.
  - exact Hsl.
  - exact Hf.
  - rewrite R. cbn [tlvs_loop]. rewrite tlv_decode_empty by auto. cbn [bind].
    change (0 =? 0) with true. cbn iota.
    assert (r_ptr r' = r_end r') as E.
    { destruct HV' as (V1 & V2 & _). unfold content in C'.
      pose proof (slice_len (r_mem r') (r_ptr r') (r_end r') ltac:(lia) ltac:(lia)) as L.
      rewrite C' in L. cbn in L. lia. }
    replace (r_ptr r' =? r_end r') with true by lia.
    exists m', new'. auto.
Qed.

Lemma tlv_seq_split es1 es2 bytes : tlv_seq (es1 ++ es2) bytes ->
  exists b1 b2, bytes = b1 ++ b2 /\ tlv_seq es1 b1 /\ tlv_seq es2 b2.
Proof.
  revert bytes. induction es1 as [|(t, v) es1 IH]; intros bytes H; cbn in H.
  - exists [], bytes. repeat split; auto. constructor.
  - inversion H as [|? ? enc ? bytes' Ht He Hs]; subst.
    destruct (IH _ Hs) as (b1 & b2 & -> & H1 & H2).
    exists (enc ++ b1), b2. rewrite <- app_assoc. repeat split; auto. constructor; auto.
Qed.

Lemma tlvs_bad fuel pre tag v post bytes tags old skip :
  Forall is_byte bytes -> len bytes < 2^63 -> tlv_seq (pre ++ (tag, v) :: post) bytes -> fine tags skip pre ->
  slots_enough tags old -> (length pre < fuel)%nat ->
  (requested tags tag -> In tag (map fst pre) ->
     exists new, tlvs_decode fuel bytes tags old skip = Ok (TLVS_DUPLICATE_TAG, new)) /\
  (~ requested tags tag -> skip = false ->
     exists new, tlvs_decode fuel bytes tags old skip = Ok (TLVS_UNKNOWN_TAG, new)).
Proof.
  intros Hb Hl Hs Hf Hsl Hfuel. rewrite tlvs_decode_start by assumption.
  replace fuel with (length pre + S (fuel - length pre - 1))%nat by lia.
  destruct (tlv_seq_split _ _ _ Hs) as (b1 & b2 & E & Hs1 & Hs2).
  destruct (tlvs_loop_run pre (S (fuel - length pre - 1)) (whole bytes) [] skip tags old 0 (start_vals tags old) b1 b2)
    as (r' & m' & new' & R & HV' & C' & M' & (_ & Hm & Hv)); auto.
  - apply valid_whole; auto.
  - rewrite content_whole. exact E.
  - apply start_state; auto.
  - rewrite R. inversion Hs2 as [|? ? enc ? bytes' Ht He Hs' E1 E2]. rewrite <- E2 in C', E.
    assert (len v < 2^63) as Hvl.
    { rewrite E in Hl. destruct He as (t & l & _ & _ & ->). rewrite !len_app in Hl.
      pose proof (len_nonneg t). pose proof (len_nonneg l). pose proof (len_nonneg b1).
      pose proof (len_nonneg bytes'). lia. }
    destruct (tlvs_step (fuel - length pre - 1) r' tags new' skip m' tag v enc bytes' HV' C' He Ht Hvl)
      as (d & r2 & _ & _ & _ & _ & R2).
    rewrite R2. clear R2. split.
    + intros Hr Hin. apply find_tag_requested in Hr. destruct Hr as (i & Ef). rewrite Ef.
      apply find_tag_spec in Ef; [|lia]. rewrite Z.sub_0_r in Ef. destruct Ef as (Hi & Hfa).
      apply (mask_bit tags pre m' i tag) in Hin; auto. rewrite Hin. eauto.
    + intros Hr ->. destruct (find_tag tags 0 tag) as [i|] eqn:Ef; [|eauto].
      exfalso. apply Hr. apply find_tag_requested. eauto.
Qed.

(* ---------- termination ---------- *)

Lemma dec_loop_fuel f : forall r last off nbits value,
  64 < nbits + 7 * (Z.of_nat f - 1) -> 0 < Z.of_nat f -> dec_loop f r last off nbits value <> Fail NoFuel.
Proof.
  induction f; intros r last off nbits value H Hf; [lia|].
  cbn [dec_loop]. destruct (r_ptr r + off <? r_end r); [|discriminate].
  destruct (rd (r_mem r) (r_ptr r + off)) as [b|e] eqn:E; cbn [bind].
  2:{ unfold rd in E. destruct (_ && _) in E; [|congruence]. destruct (nth_error _ _) in E; congruence. }
  destruct (Z.land b 128 =? 0); [discriminate|].
  destruct (Z.leb_spec (nbits + 7) 64); [|discriminate].
  apply IHf; lia.
Qed.

Lemma rd_not_nofuel {A} (l : list A) i : rd l i <> Fail NoFuel.
Proof. unfold rd. destruct (_ && _); [|discriminate]. destruct (nth_error _ _); discriminate. Qed.

Lemma unsigned_decode_not_nofuel r out : unsigned_mbn_decode r out <> Fail NoFuel.
Proof.
  unfold unsigned_mbn_decode. destruct (r_ptr r <? r_end r); [|discriminate].
  destruct (rd (r_mem r) (r_ptr r)) as [b|e] eqn:E; cbn [bind].
  2:{ intros X. inversion X; subst. eapply rd_not_nofuel; eauto. }
  destruct (negb _); [|discriminate].
  destruct (dec_loop 11 r b 1 7 (Z.land b 127)) as [[|l o n v]|e] eqn:D; cbn [bind].
  - discriminate.
  - destruct (Z.land l 128 =? 0); [|discriminate].
    destruct (n + 7 <? 64); cbn [bind]; [discriminate|].
    destruct (one_shl32 (64 - n)) eqn:O; cbn [bind].
    + destruct (_ =? 128); discriminate.
    + unfold one_shl32 in O. destruct (_ && _) in O; congruence.
  - intros X. inversion X; subst. revert D. apply dec_loop_fuel; lia.
Qed.

Lemma tlv_decode_not_nofuel r val : tlv_decode r val <> Fail NoFuel.
Proof.
  unfold tlv_decode.
  destruct (unsigned_mbn_decode r (Some 0)) as [((ok, tmp), tag)|e] eqn:D; cbn [bind].
  2:{ intros X. inversion X; subst. eapply unsigned_decode_not_nofuel; eauto. }
  destruct ok, tag as [tag|]; try discriminate. destruct (tag <=? 2^31 - 1); [|discriminate].
  destruct (unsigned_mbn_decode tmp (Some 0)) as [((ok, tmp'), l)|e] eqn:D'; cbn [bind].
  2:{ intros X. inversion X; subst. eapply unsigned_decode_not_nofuel; eauto. }
  destruct ok, l as [l|]; try discriminate. destruct (_ >=? _); discriminate.
Qed.

(* number of unused bits below 31 *)
Definition free_bits (m : Z) : nat :=
  length (filter (fun i => negb (Z.testbit m (Z.of_nat i))) (seq 0 31)).

Lemma filter_shrink {A} (p q : A -> bool) l x :
  (forall y, q y = true -> p y = true) -> In x l -> p x = true -> q x = false ->
  (length (filter q l) < length (filter p l))%nat.
Proof.
  intros Hpq. induction l as [|a l IH]; cbn; [tauto|].
  intros [->|Hin] Hp Hq.
  - rewrite Hp, Hq. cbn.
    enough (length (filter q l) <= length (filter p l))%nat by lia.
    clear IH. induction l as [|b l IH]; cbn; auto.
    destruct (q b) eqn:Q; [rewrite (Hpq b Q); cbn; lia|]. destruct (p b); cbn; lia.
  - specialize (IH Hin Hp Hq).
    destruct (q a) eqn:Q; [rewrite (Hpq a Q); cbn; lia|]. destruct (p a); cbn; lia.
Qed.

Lemma free_bits_lor m i : 0 <= i < 31 -> Z.testbit m i = false ->
  (free_bits (Z.lor m (2^i)) < free_bits m)%nat.
Proof.
  intros Hi T. unfold free_bits. apply filter_shrink with (x := Z.to_nat i).
  - intros y. rewrite lor_pow_testbit by lia. destruct (Z.testbit m (Z.of_nat y)); cbn; auto.
  - apply in_seq. lia.
  - rewrite Z2Nat.id by lia. rewrite T. reflexivity.
  - rewrite Z2Nat.id by lia. rewrite lor_pow_testbit by lia. rewrite Z.eqb_refl, orb_true_r. reflexivity.
Qed.

Lemma tlvs_loop_noskip f : forall r tags vals m, (free_bits m < f)%nat ->
  tlvs_loop f r tags vals false m <> Fail NoFuel.
Proof.
  induction f; intros r tags vals m Hf; [lia|].
  cbn [tlvs_loop].
  destruct (tlv_decode r (Some (mkData None 0))) as [((tag, r'), val)|e] eqn:D; cbn [bind].
  2:{ intros X. inversion X; subst. eapply tlv_decode_not_nofuel; eauto. }
  destruct (tag =? 0); [discriminate|].
  destruct val as [val|]; [|discriminate].
  destruct (find_tag tags 0 tag) as [i|] eqn:Ef; [|discriminate].
  apply find_tag_spec in Ef; [|lia]. destruct Ef as (Hi & _).
  rewrite land_pow_testbit by lia. destruct (Z.testbit m i) eqn:T; [discriminate|].
  pose proof (free_bits_lor m i Hi T).
  destruct vals as [n|].
  - destruct (wr n i val) as [n'|e] eqn:W; cbn [bind].
    + apply IHf. lia.
    + unfold wr in W. destruct (_ && _) in W; congruence.
  - apply IHf. lia.
Qed.

Lemma tlvs_decode_noskip bytes tags vals fuel : (32 <= fuel)%nat ->
  tlvs_decode fuel bytes tags vals false <> Fail NoFuel.
Proof.
  intros H. unfold tlvs_decode.
  assert (forall n v, clear_vals n v <> Fail NoFuel) as Hc.
  { induction n; intros v; cbn; [discriminate|]. destruct v; [discriminate|].
    destruct (clear_vals n v) eqn:E; cbn; [discriminate|]. intros X; inversion X; subst. eapply IHn; eauto. }
  destruct vals as [v|]; cbn [bind].
  - destruct (clear_vals (length tags) v) eqn:E; cbn [bind].
    + apply tlvs_loop_noskip. change (free_bits 0) with 31%nat. lia.
    + intros X; inversion X; subst. eapply Hc; eauto.
  - apply tlvs_loop_noskip. change (free_bits 0) with 31%nat. lia.
Qed.

(* every accepted input without huge numbers *)
Lemma slice_decomp {A} (l : list A) a b : 0 <= a -> a <= b <= len l ->
  exists pre post, l = pre ++ slice l a b ++ post.
Proof.
  intros. exists (firstn (Z.to_nat a) l), (skipn (Z.to_nat (b - a)) (skipn (Z.to_nat a) l)).
  unfold slice. rewrite firstn_skipn, firstn_skipn. reflexivity.
Qed.

Lemma content_part r t : valid_range r -> (exists x y, content r = x ++ t ++ y) ->
  exists pre rest, r_mem r = pre ++ t ++ rest.
Proof.
  intros (V1 & V2 & _) (x & y & E).
  destruct (slice_decomp (r_mem r) (r_ptr r) (r_end r)) as (pre & post & D); try lia.
  unfold content in E. rewrite E in D. exists (pre ++ x), (y ++ post).
  rewrite D, <- !app_assoc. reflexivity.
Qed.

Lemma tlvs_loop_nohuge f : forall r tags old vals skip m,
  valid_range r -> no_huge (r_mem r) -> slots_enough tags vals -> old = vals ->
  r_end r = len (r_mem r) ->
  r_end r - r_ptr r < Z.of_nat f ->
  exists code vals', tlvs_loop f r tags vals skip m = Ok (code, vals') /\
   (0 <= code -> 0 <= m -> exists es b1 b2, content r = b1 ++ b2 /\ tlv_seq es b1 /\
      (b2 = [] \/ exists v, tlv_of b2 0 v)).
Proof.
  induction f; intros r tags old vals skip m HV Hnh Hsl Eold Hend Hf.
  { destruct HV as (V1 & V2 & _). lia. }
  cbn [tlvs_loop].
  destruct (tlv_decode_cases r (Some (mkData None 0)) HV) as
    [(t & tag & l & L & rest & E & Ht & Htag & Hl & Hs & R)|(R & N)]; rewrite R; cbn [bind store].
  2:{ change (0 =? 0) with true. cbn iota. eexists _, _. split; [reflexivity|].
      destruct (Z.eqb_spec (r_ptr r) (r_end r)) as [Ep|Ep]; [|intros H; unfold TLVS_ERROR in H; lia].
      intros _ _. exists [], [], []. unfold content. rewrite slice_nil by lia. repeat split; auto. constructor. }
  assert (L < 2^63) as HL.
  { destruct (content_part r l HV) as (p & q & Em); [exists t, rest; exact E|].
    apply (Hnh p l q L Em Hl). }
  pose proof (ubn_nonneg _ _ Hl) as HL0. pose proof (ubn_nonneg _ _ Ht) as Ht0.
  rewrite s64_small in * by lia.
  destruct (app_split3 rest L (len rest - L)) as (v & rest' & -> & Lv & Lr); try lia.
  assert (content r = (t ++ l ++ v) ++ rest') as E' by (rewrite E, <- !app_assoc; reflexivity).
  assert (tlv_of (t ++ l ++ v) tag v) as Hof by (exists t, l; rewrite Lv; auto).
  destruct (content_advance r _ _ HV E') as (HV' & C' & _).
  replace (r_ptr r + len (t ++ l ++ v)) with (r_ptr r + len t + len l + L) in HV', C' by (rewrite !len_app; lia).
  set (r' := mkRange (r_mem r) (r_ptr r + len t + len l + L) (r_end r)) in *.
  assert (2 <= len t + len l) as H2.
  { pose proof (mbn_shape_nonempty _ (proj1 Ht)). pose proof (mbn_shape_nonempty _ (proj1 Hl)). lia. }
  destruct (Z.eqb_spec tag 0) as [E0|E0].
  { eexists _, _. split; [reflexivity|]. subst tag.
    destruct (Z.eqb_spec (r_ptr r') (r_end r')) as [Ep|Ep]; [|intros H; unfold TLVS_ERROR in H; lia].
    intros _ _. exists [], [], (t ++ l ++ v).
    assert (rest' = []) as ->. { rewrite <- C'. unfold content. apply slice_nil. lia. }
    rewrite app_nil_r in E'. repeat split; auto. constructor. right. eauto. }
  assert (forall vals2 m2, slots_enough tags vals2 -> (0 <= m -> 0 <= m2) ->
    exists code vals', tlvs_loop f r' tags vals2 skip m2 = Ok (code, vals') /\
     (0 <= code -> 0 <= m -> exists es b1 b2, content r = b1 ++ b2 /\ tlv_seq es b1 /\
      (b2 = [] \/ exists v, tlv_of b2 0 v))) as Hrec.
  { intros vals2 m2 Hs2 Hm2.
    destruct (IHf r' tags vals2 vals2 skip m2) as (code & vals' & R2 & H); auto.
    { subst r'. cbn. lia. }
    exists code, vals'. split; auto. intros Hc Hm. destruct (H Hc (Hm2 Hm)) as (es & b1 & b2 & Ec & Hseq & Hb2).
    exists ((tag, v) :: es), ((t ++ l ++ v) ++ b1), b2. split.
    - rewrite E', <- C', Ec, <- !app_assoc. reflexivity.
    - split; auto. constructor; auto. lia. }
  destruct (find_tag tags 0 tag) as [i|] eqn:Ef.
  - apply find_tag_spec in Ef; [|lia]. rewrite Z.sub_0_r in Ef. destruct Ef as (Hi & Hfa).
    rewrite land_pow_testbit by lia. destruct (Z.testbit m i) eqn:T.
    { eexists _, _. split; [reflexivity|]. unfold TLVS_DUPLICATE_TAG. lia. }
    assert (0 <= m -> 0 <= Z.lor m (2^i)) as Hm2.
    { intros. apply Z.lor_nonneg. split; auto. apply Z.pow_nonneg. lia. }
    destruct vals as [n|].
    + cbn in Hsl. assert (Z.to_nat i < length tags)%nat.
      { apply nth_error_Some. destruct Hfa as (-> & _). discriminate. }
      rewrite wr_in by (unfold len; lia). cbn [bind]. apply Hrec; auto. cbn. rewrite upd_length. auto.
    + apply Hrec; auto.
  - destruct skip; [apply Hrec; auto|]. eexists _, _. split; [reflexivity|]. unfold TLVS_UNKNOWN_TAG. lia.
Qed.

Lemma tlvs_decode_nohuge bytes tags vals skip fuel :
  Forall is_byte bytes -> no_huge bytes -> slots_enough tags vals -> (length bytes < fuel)%nat ->
  exists code vals', tlvs_decode fuel bytes tags vals skip = Ok (code, vals') /\
   (0 <= code -> exists es b1 b2, bytes = b1 ++ b2 /\ tlv_seq es b1 /\
      (b2 = [] \/ exists v, tlv_of b2 0 v)).
Proof.
  intros Hb Hn Hs Hf. rewrite tlvs_decode_start by assumption.
  assert (slots_enough tags (start_vals tags vals)) as Hs'.
  { destruct vals; cbn in *; auto. rewrite app_length, repeat_length, skipn_length. lia. }
  destruct (tlvs_loop_nohuge fuel (whole bytes) tags _ (start_vals tags vals) skip 0 (valid_whole _ Hb) Hn Hs' eq_refl eq_refl)
    as (code & vals' & R & H).
  { unfold whole, len. cbn. lia. }
  exists code, vals'. split; auto. rewrite content_whole in H. intros Hc. apply H; auto. lia.
Qed.
