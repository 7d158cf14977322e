(* Messages put together from fields and read back from a GBytes (C98). *)
From Verif Require Import Base DatapackModel DatapackSpec DatapackProofs DatapackProofs2 DatapackTlv MessageModel MessageSpec.
From Verif Require DataModel DataSpec DataProofs DataProps HexProofs DatapackProps.

(* The range is at these bytes *)
Definition at_ (mem : list Z) (r : DataModel.range) (rest : list Z) : Prop :=
  valid_range (view mem r) /\ content (view mem r) = rest /\ (DataModel.r_ptr r = None -> rest = []) /\
  DataModel.r_end r = match DataModel.r_ptr r with Some p => p | None => 0 end + len rest.

Lemma at_len mem r c : at_ mem r c -> len c <= len mem.
Proof. intros ((V1 & V2 & _) & _ & _ & E). unfold view in *. cbn in *. pose proof (len_nonneg c). lia. Qed.
Lemma at_move mem r enc rest : at_ mem r (enc ++ rest) -> enc <> [] ->
  exists p, DataModel.r_ptr r = Some p /\ at_ mem (DataModel.mkRange (Some (p + len enc)) (DataModel.r_end r)) rest.
Proof.
  intros (V & C & N & E) NE. destruct (DataModel.r_ptr r) as [p|] eqn:P.
  - exists p. split; [reflexivity|]. destruct (content_advance _ _ _ V C) as (V' & C' & _).
    unfold at_, view in *. rewrite P in *. cbn [DataModel.r_ptr DataModel.r_end r_mem r_ptr r_end] in *.
    split; [exact V'|]. split; [exact C'|]. split; [discriminate|]. rewrite E, len_app. lia.
  - exfalso. specialize (N eq_refl). destruct enc; [congruence|discriminate].
Qed.

Lemma shape_nonempty enc : mbn_shape enc -> enc <> [].
Proof. intros H ->. apply mbn_shape_nonempty in H. cbn in H. lia. Qed.
Lemma encodes_nonempty f enc : encodes f enc -> enc <> [].
Proof.
  destruct f as [v n|v n|tag val|m]; cbn [encodes].
  - intros ((S & _) & _). exact (shape_nonempty _ S).
  - intros ((S & _) & _). exact (shape_nonempty _ S).
  - intros (_ & _ & t & l & (S & _) & _ & ->). apply shape_nonempty in S. destruct t; [congruence|discriminate].
  - intros (N & ->). exact N.
Qed.

Lemma skip_accept mem r m rest : at_ mem r (m ++ rest) -> m <> [] ->
  exists p, DataModel.r_ptr r = Some p /\
  DataModel.range_skip_prefix Strict mem (Some r) (Some (DataModel.mkData (Some m) (len m))) =
  Ok (true, Some (DataModel.mkRange (Some (p + len m)) (DataModel.r_end r))).
Proof.
  intros A NE. destruct (at_move mem r m rest A NE) as (p & P & _). exists p. split; [exact P|].
  destruct A as ((V1 & V2 & V3) & C & _ & E). destruct r as [q e]. cbn in P. subst q. unfold view, content in *. cbn [DataModel.r_ptr DataModel.r_end r_mem r_ptr r_end] in *.
  assert (H : DataSpec.holds (DataModel.mkData (Some m) (len m)) m).
  { split; [|split; [reflexivity|exists []; rewrite app_nil_r; reflexivity]].
    assert (F : Forall is_byte (m ++ rest)) by (rewrite <- C; apply slice_Forall; exact V3). apply Forall_app in F. exact (proj1 F). }
  assert (NN : DataSpec.no_null (DataModel.mkData (Some m) (len m))) by (intros Q; discriminate Q).
  destruct (proj2 (DataProps.C34_range_prefix_partial Strict mem p e _ m H (or_intror NN) V1 (proj2 V2))) as (b & S & I).
  rewrite S. assert (b = true) as ->; [|reflexivity]. apply I. unfold DataProps.in_range. rewrite len_app in E. pose proof (len_nonneg rest).
  assert (0 < len m) by (destruct m; [congruence|rewrite len_cons; pose proof (len_nonneg m); lia]).
  replace (p <? e) with true by lia. rewrite C. exists rest. reflexivity.
Qed.
Lemma skip_cases mem r m c : at_ mem r c -> m <> [] ->
  (exists rest, c = m ++ rest) \/ DataModel.range_skip_prefix Strict mem (Some r) (Some (DataModel.mkData (Some m) (len m))) = Ok (false, Some r).
Proof.
  intros A NE. destruct r as [[p|] e].
  2:{ right. reflexivity. }
  destruct A as ((V1 & V2 & V3) & C & _ & E). unfold view, content in *. cbn [DataModel.r_ptr DataModel.r_end r_mem r_ptr r_end] in *.
  (* compared only if the bytes are bytes; otherwise they differ *)
  unfold DataModel.range_skip_prefix, DataModel.range_has_prefix. cbn [DataModel.r_ptr DataModel.r_end DataModel.size DataModel.bytes].
  destruct (Z.gtb_spec e p) as [G|G].
  - destruct (Z.geb_spec (e - p) (len m)) as [G2|G2]; [|right; reflexivity].
    destruct (DataProofs.memcmp_spec Strict (Some (skipn (Z.to_nat p) mem)) (Some m) (len m) _ _ eq_refl eq_refl) as (k & K1 & K2).
    + rewrite HexProofs.len_skipn by lia. lia.
    + lia.
    + rewrite K1. cbn [bind]. destruct (Z.eqb_spec k 0) as [Z0|Z0]; [|right; reflexivity]. left.
      apply K2 in Z0. unfold slice in C. exists (skipn (length m) c).
      assert (F : firstn (length m) c = m).
      { rewrite <- C, firstn_firstn, Nat.min_l by (unfold len in *; lia). unfold len in Z0. rewrite !Nat2Z.id in Z0. rewrite Z0. apply firstn_all. }
      rewrite <- F at 1. symmetry. apply firstn_skipn.
  - right. cbn [bind]. destruct (Z.eqb_spec (len m) 0) as [Q|Q]; [|reflexivity]. destruct m; [congruence|rewrite len_cons in Q; pose proof (len_nonneg m); lia].
Qed.

(* A field which is there is read *)
Lemma field_accept mem r f enc rest : at_ mem r (enc ++ rest) -> encodes f enc ->
  exists x r', read_field mem r (asks f) = Ok (Some x, r') /\ at_ mem r' rest /\ answers mem f x /\ small x.
Proof.
  intros A En. destruct (at_move mem r enc rest A (encodes_nonempty _ _ En)) as (p & P & A').
  pose proof A as (V & C & _ & E).
  destruct f as [v n|v n|tag val|m]; cbn [encodes asks read_field] in *.
  - destruct En as (U & _). rewrite (unsigned_decode_accept _ (Some 0) enc v V (ex_intro _ rest C) U). cbn [bind option_map].
    eexists _, _. split; [reflexivity|]. unfold moved. rewrite P. split; [|split; [reflexivity|exact Logic.I]].
    unfold view. cbn [r_ptr r_end]. rewrite P. exact A'.
  - destruct En as (W & -> & _). rewrite (signed_wrap_accept _ (Some 0) enc V (ex_intro _ rest C) W). cbn [bind option_map].
    eexists _, _. split; [reflexivity|]. unfold moved. rewrite P. split; [|split; [reflexivity|exact Logic.I]].
    unfold view. cbn [r_ptr r_end]. rewrite P. exact A'.
  - destruct En as (T & L & O). destruct (tlv_decode_accept _ (Some (mkData None 0)) enc tag val rest V C O (proj2 T) L) as (D & S & B).
    rewrite D. cbn [bind store]. replace (tag =? 0) with false by lia. eexists _, _. split; [reflexivity|].
    unfold moved. rewrite P. unfold view in *. cbn [r_mem r_ptr r_end] in *. rewrite P in *. split; [exact A'|]. split; [|exact L].
    split; [reflexivity|]. exists (p + len enc - len val). split; [reflexivity|]. destruct V as (V1 & V2 & _). cbn [r_mem r_ptr r_end] in *.
    pose proof (len_nonneg val). rewrite len_app in E. pose proof (len_nonneg rest).
    split; [lia|]. split; [lia|]. replace (p + len enc - len val + len val) with (p + len enc) by lia. exact S.
  - destruct En as (NE & ->). destruct (skip_accept mem r m rest A NE) as (p' & P' & S). rewrite S. cbn [bind].
    eexists _, _. split; [reflexivity|]. rewrite P in P'. injection P' as <-. split; [exact A'|]. split; exact Logic.I.
Qed.

(* and otherwise it is not, or the length is huge *)
Lemma field_cases mem r o c : at_ mem r c -> sensible o ->
  (exists f enc rest, asks f = o /\ encodes f enc /\ c = enc ++ rest) \/ (exists r', read_field mem r o = Ok (None, r')) \/
  (exists tag d r', read_field mem r o = Ok (Some (RT tag d), r') /\ 2^63 <= d_size d).
Proof.
  intros A S. pose proof A as (V & C & _ & E). destruct o as [| | |m]; cbn [read_field sensible] in *.
  - destruct (ubn_dec _ V) as [(enc & v & rest & K & U)|No].
    + left. exists (FU v (len enc)), enc, rest. split; [reflexivity|]. split; [split; [exact U|reflexivity]|]. congruence.
    + right; left. rewrite unsigned_decode_reject by assumption. cbn [bind]. eexists. reflexivity.
  - destruct (DatapackProofs2.signed_decode_spec Wrap (view mem r) (Some 0) V) as
      [(t & rst & E1 & Ht & R)|[(m & c' & t & rst & E1 & Hm & Hc & Ht & Hl & R)|(N & R)]].
    + left. exists (FS (s64 (sval [t])) 1), [t], rst. split; [reflexivity|]. split; [|rewrite <- C; exact E1].
      split; [|split; reflexivity]. pose proof (sval_one_range t Ht). split; [exists [], t; repeat split; auto; lia|]. change (len [t]) with 1. lia.
    + rewrite R. unfold smany. rewrite andb_false_r.
      destruct ((-2^64 <=? sval (m :: c' ++ [t])) && (sval (m :: c' ++ [t]) <? 2^64)) eqn:W.
      * left. exists (FS (s64 (sval (m :: c' ++ [t]))) (len (m :: c' ++ [t]))), (m :: c' ++ [t]), rst. split; [reflexivity|]. split.
        -- split; [|split; reflexivity]. split; [apply shape_many; assumption|]. rewrite len_many. lia.
        -- rewrite <- C, E1. cbn. rewrite <- app_assoc. reflexivity.
      * right; left. cbn [bind]. eexists. reflexivity.
    + right; left. rewrite R. cbn [bind]. eexists. reflexivity.
  - destruct (tlv_decode_cases (view mem r) (Some (mkData None 0)) V) as [(t & tag & l & L & rest & K & Ut & Tt & Ul & Hs & R)|(R & _)].
    + rewrite R. cbn [bind store]. destruct (Z.eqb_spec tag 0) as [->|NZ]; [right; left; eexists; reflexivity|].
      pose proof (ubn_nonneg _ _ Ul) as LB. pose proof (ubn_nonneg _ _ Ut) as TB.
      destruct (Z.ltb_spec L (2^63)) as [SM|HU].
      * left. rewrite s64_small in Hs by lia. destruct (app_split3 rest L (len rest - L) ltac:(lia) ltac:(lia) ltac:(lia)) as (v & q & -> & Lv & _).
        exists (FT tag v), (t ++ l ++ v), q. split; [reflexivity|]. split.
        -- split; [lia|]. split; [lia|]. exists t, l. rewrite Lv. split; [exact Ut|]. split; [exact Ul|reflexivity].
        -- rewrite <- C, K, <- !app_assoc. reflexivity.
      * right; right. eexists _, _, _. split; [reflexivity|]. exact HU.
    + right; left. rewrite R. cbn [bind store]. eexists. reflexivity.
  - destruct (skip_cases mem r m c A S) as [(rest & ->)|R].
    + left. exists (FM m), m, rest. split; [reflexivity|]. split; [split; [exact S|reflexivity]|reflexivity].
    + right; left. rewrite R. cbn [bind]. eexists. reflexivity.
Qed.

Lemma shape_same e1 r1 e2 r2 : mbn_shape e1 -> mbn_shape e2 -> e1 ++ r1 = e2 ++ r2 -> e1 = e2.
Proof.
  intros (c & t & -> & Hc & Ht) S2 E. rewrite <- app_assoc in E. symmetry. apply (shape_unique c t r1 e2 r2); auto.
Qed.
(* No encoding begins with another one of the same kind *)
Lemma encodes_same f f' e1 e2 r1 r2 : encodes f e1 -> encodes f' e2 -> asks f = asks f' -> e1 ++ r1 = e2 ++ r2 -> e1 = e2 /\ f = f'.
Proof.
  intros E1 E2 A Q. destruct f as [v n|v n|tag val|m], f' as [v' n'|v' n'|tag' val'|m']; cbn in A; try discriminate A; cbn [encodes] in *.
  - destruct E1 as (U1 & ->), E2 as (U2 & ->). destruct (ubn_unique _ _ _ _ _ _ Q U1 U2) as (-> & -> & _). split; reflexivity.
  - destruct E1 as ((S1 & _) & -> & ->), E2 as ((S2 & _) & -> & ->). rewrite (shape_same _ _ _ _ S1 S2 Q). split; reflexivity.
  - destruct E1 as (_ & _ & t & l & T1 & L1 & ->), E2 as (_ & _ & t' & l' & T2 & L2 & ->). rewrite <- !app_assoc in Q.
    destruct (ubn_unique _ _ _ _ _ _ Q T1 T2) as (-> & -> & Q2). destruct (ubn_unique _ _ _ _ _ _ Q2 L1 L2) as (-> & LL & Q3).
    assert (val = val').
    { apply (f_equal (firstn (length val))) in Q3. assert (length val = length val') by (unfold len in LL; lia).
      rewrite firstn_app, Nat.sub_diag, firstn_all in Q3. rewrite H, firstn_app, Nat.sub_diag, firstn_all in Q3. cbn in Q3. rewrite !app_nil_r in Q3. exact Q3. }
    subst val'. split; reflexivity.
  - injection A as <-. destruct E1 as (_ & ->), E2 as (_ & ->). split; reflexivity.
Qed.

Lemma sensible_asks f enc : encodes f enc -> sensible (asks f).
Proof. destruct f as [v n|v n|tag val|m]; cbn; try (intros _; exact Logic.I). intros (N & _). exact N. Qed.

(* What is cut off is not read *)
Lemma field_reject mem r f p q : at_ mem r p -> encodes f (p ++ q) -> q <> [] -> exists r', read_field mem r (asks f) = Ok (None, r').
Proof.
  intros A E NQ. destruct (field_cases mem r (asks f) p A (sensible_asks f _ E)) as [(f' & enc & rest & AF & E' & ->)|[R|(tag & d & r' & R & H)]].
  - exfalso. assert (Q : enc = (enc ++ rest) ++ q).
    { refine (proj1 (encodes_same f' f enc ((enc ++ rest) ++ q) (rest ++ q) [] E' E AF _)). rewrite app_nil_r, <- app_assoc. reflexivity. }
    apply (f_equal len) in Q. rewrite !len_app in Q. pose proof (len_nonneg rest). destruct q; [congruence|]. rewrite len_cons in Q. pose proof (len_nonneg q). lia.
  - exact R.
  - exfalso. destruct A as (V & C & _). destruct f as [v n|v n|tg val|m]; cbn [asks read_field] in R.
    + destruct (unsigned_mbn_decode (view mem r) (Some 0)) as [[[ok r1] [v1|]]|]; cbn [bind] in R; [destruct ok|destruct ok|]; discriminate.
    + destruct (signed_mbn_decode Wrap (view mem r) (Some 0)) as [[[ok r1] [v1|]]|]; cbn [bind] in R; [destruct ok|destruct ok|]; discriminate.
    + destruct (tlv_decode_cases (view mem r) (Some (mkData None 0)) V) as [(t & tg' & l & L & rest & K & Ut & Tt & Ul & Hs & D)|(D & _)]; rewrite D in R; cbn [bind store] in R.
      * destruct (tg' =? 0); [discriminate|]. injection R as <- <- <-. cbn [d_size] in H.
        destruct E as (_ & SV & t' & l' & Ut' & Ul' & Q). rewrite <- C, K, <- !app_assoc in Q.
        destruct (ubn_unique _ _ _ _ _ _ Q Ut Ut') as (-> & -> & Q2). destruct (ubn_unique _ _ _ _ _ _ Q2 Ul Ul') as (_ & LL & _). lia.
      * discriminate.
    + destruct (DataModel.range_skip_prefix _ _ _ _) as [[ok [r1|]]|]; cbn [bind] in R; [destruct ok| |]; discriminate.
Qed.

Definition fromb (b : DataModel.gdata) : list Z := match DataModel.bytes b with Some m => m | None => [] end.
Definition first_range (b : DataModel.gdata) : DataModel.range :=
  DataModel.mkRange (match DataModel.bytes b with Some _ => Some 0 | None => None end) (DataModel.size b).
Lemma gbytes_at b m : gbytes_of b m -> fromb b = m /\ at_ (fromb b) (first_range b) m.
Proof.
  intros (F & S & [B|(-> & B)]); unfold fromb, first_range; rewrite B, S.
  - split; [reflexivity|]. unfold at_, view. cbn [DataModel.r_ptr DataModel.r_end]. split; [exact (valid_whole m F)|]. split; [exact (content_whole m)|].
    split; [discriminate|lia].
  - split; [reflexivity|]. unfold at_, view. cbn. split; [repeat split; cbn; try lia; constructor|]. split; [reflexivity|]. split; [reflexivity|reflexivity].
Qed.
Definition at_end (r : DataModel.range) : bool := match DataModel.r_ptr r with Some p => p =? DataModel.r_end r | None => 0 =? DataModel.r_end r end.
Lemma at_end_ok mem r c : at_ mem r c -> (at_end r = true <-> c = []).
Proof.
  intros (_ & _ & _ & E). unfold at_end. pose proof (len_nonneg c).
  assert (Z0 : len c = 0 <-> c = []) by (destruct c; [split; reflexivity|]; rewrite len_cons; pose proof (len_nonneg c); split; [lia|discriminate]).
  destruct (DataModel.r_ptr r); rewrite Z.eqb_eq, <- Z0; lia.
Qed.
Lemma read_bytes_eq b os : read_bytes b os = do (xs, ok, r) <- read (fromb b) (first_range b) os; Ok (xs, ok && at_end r).
Proof. reflexivity. Qed.

Lemma read_message mem fs c : message fs c -> forall r rest, at_ mem r (c ++ rest) ->
  exists xs r', read mem r (map asks fs) = Ok (xs, true, r') /\ at_ mem r' rest /\ Forall2 (answers mem) fs xs /\ Forall small xs.
Proof.
  intros M. induction M as [|f enc fs tl E M IH]; intros r rest A; cbn [map read].
  - exists [], r. split; [reflexivity|]. split; [exact A|]. split; constructor.
  - rewrite <- app_assoc in A. destruct (field_accept mem r f enc (tl ++ rest) A E) as (x & r1 & R & A1 & AN & SM). rewrite R. cbn [bind].
    destruct (IH r1 rest A1) as (xs & r2 & R2 & A2 & F2 & S2). rewrite R2. cbn [bind]. exists (x :: xs), r2. split; [reflexivity|]. split; [exact A2|].
    split; constructor; assumption.
Qed.

(* Everything that is a message is read, with the values of its fields *)
Theorem C98_reads : forall fs m b, message fs m -> gbytes_of b m ->
  exists xs, read_bytes b (map asks fs) = Ok (xs, true) /\ Forall2 (answers m) fs xs.
Proof.
  intros fs m b M G. destruct (gbytes_at b m G) as (F & A). rewrite read_bytes_eq.
  rewrite <- (app_nil_r m) in A. destruct (read_message (fromb b) fs m M _ [] A) as (xs & r & R & A' & AN & _). rewrite R. cbn [bind].
  exists xs. split; [|rewrite F in AN; exact AN]. rewrite (proj2 (at_end_ok _ _ _ A') eq_refl). reflexivity.
Qed.
Print Assumptions C98_reads.

(* One that was cut off is not accepted, nor one with something behind it *)
Theorem C98_truncated : forall fs p q b, message fs (p ++ q) -> q <> [] -> gbytes_of b p -> exists xs, read_bytes b (map asks fs) = Ok (xs, false).
Proof.
  intros fs p q b M NQ G. destruct (gbytes_at b p G) as (F & A). rewrite read_bytes_eq.
  enough (H : exists xs r, read (fromb b) (first_range b) (map asks fs) = Ok (xs, false, r)).
  { destruct H as (xs & r & R). rewrite R. cbn [bind andb]. exists xs. reflexivity. }
  clear F G. generalize dependent (first_range b). generalize (fromb b). intros mem.
  remember (p ++ q) as c eqn:EC. revert p q NQ EC. induction M as [|f enc fs tl E M IH]; intros p q NQ EC r A; cbn [map read].
  - destruct p; [|discriminate]. cbn in EC. congruence.
  - destruct (Nat.le_gt_cases (length enc) (length p)) as [L|L].
    + (* the first field is complete *)
      assert (exists p2, p = enc ++ p2 /\ tl = p2 ++ q) as (p2 & -> & ->).
      { exists (skipn (length enc) p). assert (K : firstn (length enc) p = enc).
        { apply (f_equal (firstn (length enc))) in EC. rewrite firstn_app, Nat.sub_diag, firstn_all, firstn_O, app_nil_r in EC.
          rewrite firstn_app in EC. replace (length enc - length p)%nat with 0%nat in EC by lia. rewrite firstn_O, app_nil_r in EC. congruence. }
        rewrite <- K at 1. split; [symmetry; apply firstn_skipn|].
        rewrite <- (firstn_skipn (length enc) p), K, <- app_assoc in EC. apply app_inv_head in EC. exact EC. }
      destruct (field_accept mem r f enc p2 A E) as (x & r1 & R & A1 & _). rewrite R. cbn [bind].
      destruct (IH p2 q NQ eq_refl r1 A1) as (xs & r2 & R2). rewrite R2. cbn [bind]. exists (x :: xs), r2. reflexivity.
    + assert (exists q2, q2 <> [] /\ enc = p ++ q2) as (q2 & N2 & ->).
      { exists (skipn (length p) enc). split; [intros Q; apply (f_equal (@length Z)) in Q; rewrite skipn_length in Q; cbn in Q; lia|].
        assert (K : firstn (length p) enc = p).
        { apply (f_equal (firstn (length p))) in EC. rewrite !firstn_app, Nat.sub_diag, firstn_all, firstn_O, app_nil_r in EC.
          replace (length p - length enc)%nat with 0%nat in EC by lia. rewrite firstn_O, app_nil_r in EC. exact EC. }
        rewrite <- K at 1. symmetry. apply firstn_skipn. }
      destruct (field_reject mem r f p q2 A E N2) as (r1 & R). rewrite R. cbn [bind]. exists [], r1. reflexivity.
Qed.
Print Assumptions C98_truncated.
Theorem C98_extended : forall fs p q b, message fs p -> q <> [] -> gbytes_of b (p ++ q) -> exists xs, read_bytes b (map asks fs) = Ok (xs, false).
Proof.
  intros fs p q b M NQ G. destruct (gbytes_at b _ G) as (F & A). rewrite read_bytes_eq.
  destruct (read_message (fromb b) fs p M _ q A) as (xs & r & R & A' & _). rewrite R. cbn [bind andb]. exists xs.
  destruct (at_end r) eqn:K; [|reflexivity]. apply (at_end_ok _ _ _ A') in K. congruence.
Qed.
Print Assumptions C98_extended.

Lemma read_exact mem os : Forall sensible os -> forall r c xs r', at_ mem r c -> read mem r os = Ok (xs, true, r') -> Forall small xs ->
  exists fs p q, map asks fs = os /\ message fs p /\ c = p ++ q /\ at_ mem r' q /\ Forall2 (answers mem) fs xs.
Proof.
  intros SE. induction SE as [|o os S SE IH]; intros r c xs r' A R SM; cbn [read] in R.
  - injection R as <- <-. exists [], [], c. repeat split; try constructor; apply A.
  - destruct (field_cases mem r o c A S) as [(f & enc & rest & <- & E & ->)|[(r1 & K)|(tag & d & r1 & K & H)]].
    + destruct (field_accept mem r f enc rest A E) as (x & r1 & K & A1 & AN & _). rewrite K in R. cbn [bind] in R.
      destruct (read mem r1 os) as [[[xs1 ok1] r2]|] eqn:R1; cbn [bind] in R; [|discriminate]. injection R as <- -> <-.
      inversion SM as [|? ? SM1 SM2]; subst. destruct (IH r1 rest xs1 r2 A1 R1 SM2) as (fs & p & q & E1 & E2 & E3 & E4 & E5).
      exists (f :: fs), (enc ++ p), q. split; [cbn; congruence|]. split; [constructor; assumption|]. split; [rewrite E3, app_assoc; reflexivity|].
      split; [exact E4|]. constructor; assumption.
    + rewrite K in R. cbn [bind] in R. discriminate.
    + rewrite K in R. cbn [bind] in R. destruct (read mem r1 os) as [[[xs1 ok1] r2]|]; cbn [bind] in R; [|discriminate]. injection R as <- -> <-.
      inversion SM as [|? ? SM1 SM2]; subst. cbn in SM1. lia.
Qed.

(* What is accepted is a message, and the answers are the values of its fields. Missing: lengths of 2^63 and more (C98_exact_refuted). *)
Theorem C98_exact_partial : forall os m b xs, gbytes_of b m -> Forall sensible os -> read_bytes b os = Ok (xs, true) -> Forall small xs ->
  exists fs, map asks fs = os /\ message fs m /\ Forall2 (answers m) fs xs.
Proof.
  intros os m b xs G SE R SM. destruct (gbytes_at b m G) as (F & A). rewrite read_bytes_eq in R.
  destruct (read (fromb b) (first_range b) os) as [[[xs1 ok] r]|] eqn:K; cbn [bind] in R; [|discriminate]. injection R as -> R.
  apply andb_prop in R. destruct R as (-> & R). destruct (read_exact (fromb b) os SE _ m xs r A K SM) as (fs & p & q & E1 & E2 & E3 & E4 & E5).
  apply (at_end_ok _ _ _ E4) in R. subst q. rewrite app_nil_r in E3. subst p. rewrite F in E5. exists fs. split; [exact E1|]. split; assumption.
Qed.
Print Assumptions C98_exact_partial.

Lemma read_inside mem os : Forall sensible os -> forall r c, at_ mem r c ->
  (exists y, read mem r os = Ok y) \/ (exists os1 os2 xs r', os = os1 ++ os2 /\ read mem r os1 = Ok (xs, true, r') /\ ~ Forall small xs).
Proof.
  intros SE. induction SE as [|o os S SE IH]; intros r c A.
  - left. eexists. reflexivity.
  - destruct (field_cases mem r o c A S) as [(f & enc & rest & <- & E & ->)|[(r1 & K)|(tag & d & r1 & K & H)]].
    + destruct (field_accept mem r f enc rest A E) as (x & r1 & K & A1 & _ & _).
      destruct (IH r1 rest A1) as [([[xs ok] r2] & R)|(os1 & os2 & xs & r2 & -> & R & N)].
      * left. cbn [read]. rewrite K. cbn [bind]. rewrite R. eexists. reflexivity.
      * right. exists (asks f :: os1), os2, (x :: xs), r2. split; [reflexivity|]. split; [cbn [read]; rewrite K; cbn [bind]; rewrite R; reflexivity|].
        intros Q. inversion Q. contradiction.
    + left. cbn [read]. rewrite K. eexists. reflexivity.
    + right. exists [o], os, [RT tag d], r1. split; [reflexivity|]. split; [cbn [read]; rewrite K; reflexivity|].
      intros Q. inversion Q as [|? ? Q1 _]; subst. cbn in Q1. lia.
Qed.
(* Whatever the GBytes is, nothing is read outside of it unless a length of 2^63 or more is met *)
Theorem C98_inside_partial : forall os m b, gbytes_of b m -> Forall sensible os ->
  (exists xs ok, read_bytes b os = Ok (xs, ok)) \/
  (exists os1 os2 xs r, os = os1 ++ os2 /\ read m (first_range b) os1 = Ok (xs, true, r) /\ ~ Forall small xs).
Proof.
  intros os m b G SE. destruct (gbytes_at b m G) as (F & A). rewrite F in A.
  destruct (read_inside m os SE _ m A) as [([[xs ok] r] & R)|H]; [left|right; exact H]. rewrite read_bytes_eq, F, R. cbn [bind]. eexists _, _. reflexivity.
Qed.
Print Assumptions C98_inside_partial.

Lemma shape_bytes l : mbn_shape l -> Forall is_byte l.
Proof.
  intros (c & t & -> & C & T). apply Forall_app. split.
  - eapply Forall_impl; [|exact C]. intros a H. cbn in H. unfold is_byte. lia.
  - constructor; [unfold is_byte; lia|constructor].
Qed.

Lemma write_one f : writable f -> exists n, field_size f = Ok n /\ 0 <= n /\
  exists enc, len enc = n /\ encodes f enc /\ Forall is_byte enc /\
    forall pre mid post, len mid = n -> write_field (pre ++ mid ++ post) (len pre) f = Ok (pre ++ enc ++ post, n).
Proof.
  destruct f as [v n|v n|tag val|m]; cbn [writable field_size write_field encodes].
  - intros (V & N1 & N2 & FI). exists n. split; [reflexivity|]. split; [lia|]. exists (enc_bytes v n).
    pose proof (enc_bytes_ubn v n V FI ltac:(lia)) as U. rewrite enc_bytes_len by lia. repeat split; try apply U.
    + apply shape_bytes. apply U.
    + intros pre mid post L. apply unsigned_encode2_spec; [lia|exact L].
  - intros (V & N1 & N2 & FI). exists n. split; [reflexivity|]. split; [lia|]. exists (enc_bytes v n).
    pose proof (enc_bytes_shape v n) as S. pose proof (sval_enc v n N2 FI) as E. unfold in_s64 in V.
    rewrite enc_bytes_len by lia. split; [reflexivity|]. split.
    + split; [split; [exact S|]; rewrite enc_bytes_len by lia; rewrite E; lia|]. split; [|reflexivity]. rewrite E. symmetry. apply s64_id. exact V.
    + split; [apply shape_bytes; exact S|]. intros pre mid post L. apply signed_encode2_spec; [exact V|lia|exact L].
  - intros (T & L & B). pose proof (len_nonneg val) as LN.
    assert (T64 : in_u64 tag) by (unfold in_u64; lia). assert (V64 : in_u64 (len val)) by (unfold in_u64; lia).
    destruct (unsigned_size_spec tag T64) as (a & Ha & La & Ba). destruct (unsigned_size_spec (len val) V64) as (c & Hc & Lc & Bc).
    pose proof (proj1 La). pose proof (proj1 Lc).
    pose proof (enc_bytes_ubn tag a T64 (proj1 (proj2 La)) ltac:(lia)) as Ut. pose proof (enc_bytes_ubn (len val) c V64 (proj1 (proj2 Lc)) ltac:(lia)) as Ul.
    exists (a + c + len val). split.
    { unfold tlv_size. rewrite Ha, Hc. cbn [bind]. rewrite (u32_id (a + c)) by (unfold in_u32; lia). rewrite u64_small by lia. rewrite u32_id by (unfold in_u32; lia). reflexivity. }
    split; [lia|]. exists (enc_bytes tag a ++ enc_bytes (len val) c ++ val). rewrite !len_app, !enc_bytes_len by lia. split; [lia|]. split.
    { split; [exact T|]. split; [lia|]. exists (enc_bytes tag a), (enc_bytes (len val) c). repeat split; try apply Ut; apply Ul. }
    split; [rewrite !Forall_app; repeat split; [apply shape_bytes, Ut|apply shape_bytes, Ul|exact B]|].
    intros pre mid post LM. apply tlv_encode_spec; auto; lia.
  - intros (N & B). exists (len m). split; [reflexivity|]. split; [apply len_nonneg|]. exists m. split; [reflexivity|]. split; [split; [exact N|reflexivity]|].
    split; [exact B|]. intros pre mid post L. rewrite copy_to_spec by (unfold len in L; lia). reflexivity.
Qed.

Lemma write_message fs : Forall writable fs -> exists n, message_size fs = Ok n /\ 0 <= n /\
  exists enc, len enc = n /\ message fs enc /\ Forall is_byte enc /\
    forall pre mid post, len mid = n -> write (pre ++ mid ++ post) (len pre) fs = Ok (pre ++ enc ++ post, len pre + n).
Proof.
  intros W. induction W as [|f fs Wf W IH].
  - exists 0. split; [reflexivity|]. split; [lia|]. exists []. split; [reflexivity|]. split; [constructor|]. split; [constructor|]. intros pre mid post L.
    destruct mid; [|rewrite len_cons in L; pose proof (len_nonneg mid); lia]. cbn. rewrite Z.add_0_r. reflexivity.
  - destruct (write_one f Wf) as (n & S & N0 & enc & L & E & B & H). destruct IH as (m & S2 & M0 & enc2 & L2 & M2 & B2 & H2).
    exists (n + m). cbn [message_size]. rewrite S, S2. cbn [bind]. split; [reflexivity|]. split; [lia|].
    exists (enc ++ enc2). rewrite len_app. split; [lia|]. split; [constructor; assumption|]. split; [apply Forall_app; split; assumption|].
    intros pre mid post LM. destruct (app_split3 mid n m N0 M0 LM) as (x & y & -> & Lx & Ly).
    cbn [write]. rewrite <- app_assoc. rewrite (H pre x (y ++ post) Lx). cbn [bind].
    replace (pre ++ enc ++ y ++ post) with ((pre ++ enc) ++ y ++ post) by (rewrite <- !app_assoc; reflexivity).
    replace (len pre + n) with (len (pre ++ enc)) by (rewrite len_app; lia). rewrite (H2 (pre ++ enc) y post Ly).
    rewrite <- !app_assoc, len_app. replace (len pre + len enc + m) with (len pre + (n + m)) by lia. reflexivity.
Qed.

(* The fields are written into exactly the room which the sizes promise, as a message *)
Theorem C98_writes : forall fs, Forall writable fs -> exists n, message_size fs = Ok n /\
  exists enc, len enc = n /\ message fs enc /\ Forall is_byte enc /\
    forall pre mid post, len mid = n -> write (pre ++ mid ++ post) (len pre) fs = Ok (pre ++ enc ++ post, len pre + n).
Proof.
  intros fs W. destruct (write_message fs W) as (n & S & _ & H). exists n. split; [exact S|exact H].
Qed.
Print Assumptions C98_writes.

(* and come back *)
Theorem C98_round_trip : forall fs, Forall writable fs -> exists n, message_size fs = Ok n /\
  forall buf, len buf = n -> exists m, write buf 0 fs = Ok (m, n) /\
    forall b, DataModel.size b = len m -> DataModel.bytes b = Some m \/ (m = [] /\ DataModel.bytes b = None) ->
    exists xs, read_bytes b (map asks fs) = Ok (xs, true) /\ Forall2 (answers m) fs xs.
Proof.
  intros fs W. destruct (write_message fs W) as (n & S & _ & enc & L & M & B & H). exists n. split; [exact S|].
  intros buf LB. exists enc. split.
  - specialize (H [] buf [] LB). cbn [app] in H. rewrite !app_nil_r in H. exact H.
  - intros b SZ BY. apply C98_reads; [exact M|]. split; [exact B|]. split; assumption.
Qed.
Print Assumptions C98_round_trip.

(* The range covers the whole GBytes, and its size is returned; without a GBytes it is empty *)
Theorem C98_init : forall r m b, gbytes_of b m ->
  (exists r', range_init_with_bytes (Some r) (Some b) = (Some r', len m) /\ content (view m r') = m /\ valid_range (view m r')) /\
  range_init_with_bytes None (Some b) = (None, 0) /\
  (exists r', range_init_with_bytes (Some r) None = (Some r', 0) /\ DataModel.r_ptr r' = None /\ DataModel.r_end r' = 0).
Proof.
  intros r m b G. split; [|split; [reflexivity|eexists; repeat split]].
  destruct (gbytes_at b m G) as (F & V & C & _). rewrite F in *. exists (first_range b). split; [|split; assumption].
  unfold range_init_with_bytes. rewrite (proj1 (proj2 G)). unfold first_range. rewrite (proj1 (proj2 G)). reflexivity.
Qed.
Print Assumptions C98_init.

(* A length of 2^63 or more moves the range in front of the GBytes *)
Theorem C98_exact_refuted : exists m b os xs, gbytes_of b m /\ Forall sensible os /\ read_bytes b os = Ok (xs, true) /\
  forall fs, map asks fs = os -> ~ message fs m.
Proof.
  (* the length is 2^64 - 10: back to the length field, which is then read as a number *)
  set (l := [129;255;255;255;255;255;255;255;255;118]).
  exists (1 :: l), (DataModel.mkData (Some (1 :: l)) 11), [OT; OU], [RT 1 (mkData (Some 11) (2^64 - 10)); RU (2^64 - 10)].
  split; [split; [repeat constructor; unfold is_byte; lia|split; [reflexivity|left; reflexivity]]|]. split; [repeat constructor|].
  split; [vm_compute; reflexivity|]. intros fs A M. destruct fs as [|f fs]; [discriminate|]. inversion M as [|? enc ? rest E M' E1 E2]; subst. cbn [map] in A. injection A as A _.
  destruct f as [v n|v n|tag val|m]; try discriminate A. destruct E as (_ & SV & t & k & Ut & Uk & ->). rewrite <- !app_assoc in E2.
  assert (U1 : ubn [1] 1) by (split; [exists [], 1; split; [reflexivity|split; [constructor|lia]]|]; split; [cbn; lia|split; [reflexivity|lia]]).
  destruct (ubn_unique [1] l 1 t (k ++ val ++ rest) tag (eq_sym E2) U1 Ut) as (_ & _ & E3).
  assert (U2 : ubn l (2^64 - 10)).
  { split; [exists [129;255;255;255;255;255;255;255;255], 118; split; [reflexivity|]; split; [repeat constructor; lia|lia]|]. split; [cbn; lia|split; [reflexivity|lia]]. }
  rewrite <- (app_nil_r l) in E3. destruct (ubn_unique l [] _ k (val ++ rest) (len val) E3 U2 Uk) as (_ & LL & _). lia.
Qed.
Print Assumptions C98_exact_refuted.
Theorem C98_inside_refuted : exists m b os, gbytes_of b m /\ Forall sensible os /\ read_bytes b os = Fail OobRead.
Proof.
  exists [1; 129;255;255;255;255;255;255;255;255;116], (DataModel.mkData (Some [1; 129;255;255;255;255;255;255;255;255;116]) 11), [OT; OU].
  split; [split; [repeat constructor; unfold is_byte; lia|split; [reflexivity|left; reflexivity]]|]. split; [repeat constructor|]. vm_compute. reflexivity.
Qed.
Print Assumptions C98_inside_refuted.

(* A number, a padded one, a TLV and a marker *)
Definition ex_fs := [FM [71; 85]; FU 300 3; FS (-65) 2; FT 200 [7; 8]; FU 0 1].
Definition ex_m := [71; 85; 128; 130; 44; 255; 63; 129; 72; 2; 7; 8; 0].
Example C98_example_writable : Forall writable ex_fs /\ message_size ex_fs = Ok 13 /\ write (repeat 9 13) 0 ex_fs = Ok (ex_m, 13).
Proof.
  split; [|split; vm_compute; reflexivity]. repeat constructor; try discriminate; try (unfold is_byte, in_u64, in_s64; lia); try (cbn; lia).
Qed.
Example C98_example_message : gbytes_of (DataModel.mkData (Some ex_m) 13) ex_m /\ message ex_fs ex_m /\
  read_bytes (DataModel.mkData (Some ex_m) 13) (map asks ex_fs) = Ok ([RM; RU 300; RS (-65); RT 200 (mkData (Some 10) 2); RU 0], true) /\
  message ex_fs (firstn 9 ex_m ++ skipn 9 ex_m) /\
  read_bytes (DataModel.mkData (Some (firstn 9 ex_m)) 9) (map asks ex_fs) = Ok ([RM; RU 300; RS (-65)], false) /\
  read_bytes (DataModel.mkData (Some (ex_m ++ [0])) 14) (map asks ex_fs) = Ok ([RM; RU 300; RS (-65); RT 200 (mkData (Some 10) 2); RU 0], false).
Proof.
  assert (B : Forall is_byte ex_m) by (repeat constructor; unfold is_byte; lia).
  assert (M : message ex_fs ex_m).
  { destruct (C98_writes ex_fs (proj1 C98_example_writable)) as (n & S & enc & L & M & _ & W).
    pose proof (proj2 C98_example_writable) as (S' & W'). rewrite S in S'. injection S' as ->.
    specialize (W [] (repeat 9 13) [] eq_refl). cbn [app] in W. rewrite !app_nil_r in W. change (len []) with 0 in W. rewrite W in W'. injection W' as W'. rewrite <- W'. exact M. }
  split; [split; [exact B|split; [reflexivity|left; reflexivity]]|]. split; [exact M|]. split; [vm_compute; reflexivity|].
  split; [rewrite firstn_skipn; exact M|]. split; vm_compute; reflexivity.
Qed.
(* An empty GBytes with a NULL pointer: nothing is there, and that is all that can be read *)
Example C98_example_empty : gbytes_of (DataModel.mkData None 0) [] /\ read_bytes (DataModel.mkData None 0) [] = Ok ([], true) /\
  read_bytes (DataModel.mkData None 0) [OT] = Ok ([], false) /\ read_bytes (DataModel.mkData None 0) [OM [1]] = Ok ([], false).
Proof. split; [split; [constructor|split; [reflexivity|right; split; reflexivity]]|]. repeat split. Qed.
