(* C95 once more: what the TLV functions do with any input on 32-bit platforms, lengths of 2^31 and more included *)
From Verif Require Import Base DatapackModel DatapackSpec DatapackProofs DatapackProofs2 DatapackTlv DatapackProps TlvExactProps Tlv32Model Tlv32Spec Tlv32Props.
From Coq Require Import ZifyBool.

(* At position p of the input there is a tag and the length L of a value which would begin at o. The size reported is n, the lowest 32 bits of L. The next TLV is looked for at q, which is s bytes after o, where s is the same 32 bits with sign: it may be in front of o. *)
Definition hop32 (bytes : list Z) (p tag o n q : Z) : Prop :=
  exists pre t l rest L s, bytes = pre ++ t ++ l ++ rest /\ p = len pre /\ ubn t tag /\ tag <= 2^31 - 1 /\ ubn l L /\ low32 L n /\ low32s L s /\ o = p + len t + len l /\ s <= len rest /\ q = o + s.

(* es are the tags met so far, each with position and size of the value, and p is where the next one is looked for *)
Inductive walk32 (bytes tags : list Z) (skip : bool) : Z -> list (Z * (Z * Z)) -> Prop :=
| walk32_nil : walk32 bytes tags skip 0 []
| walk32_hop p es tag o n q : walk32 bytes tags skip p es -> hop32 bytes p tag o n q -> tag <> 0 -> (requested tags tag -> ~ In tag (map fst es)) -> (~ requested tags tag -> skip = true) -> walk32 bytes tags skip q (es ++ [(tag, (o, n))]).

Lemma hop32_pos bytes p tag o n q : hop32 bytes p tag o n q -> 0 <= p <= len bytes /\ 0 <= tag <= 2^31 - 1 /\ q <= len bytes /\ 0 <= n < 2^32.
Proof.
  intros (pre & t & l & rest & L & s & -> & -> & Ht & Hg & Hl & (Ln & _) & (Ls & _) & -> & Hs & ->). rewrite !len_app. pose proof (len_nonneg pre). pose proof (len_nonneg t). pose proof (len_nonneg l). pose proof (len_nonneg rest).
  pose proof (ubn_nonneg _ _ Ht). lia.
Qed.

Lemma hop32_det bytes p tag o n q tag' o' n' q' : hop32 bytes p tag o n q -> hop32 bytes p tag' o' n' q' -> tag = tag' /\ o = o' /\ n = n' /\ q = q'.
Proof.
  intros (pre & t & l & rest & L & s & -> & -> & Ht & Hg & Hl & Ln & Ls & -> & Hs & ->) (pre' & t' & l' & rest' & L' & s' & E & Ep & Ht' & Hg' & Hl' & Ln' & Ls' & -> & Hs' & ->).
  assert (pre = pre' /\ t ++ l ++ rest = t' ++ l' ++ rest') as (<- & E').
  { apply app_same in E; auto. unfold len in Ep. lia. }
  destruct (ubn_unique _ _ _ _ _ _ E' Ht Ht') as (<- & <- & E''). destruct (ubn_unique _ _ _ _ _ _ E'' Hl Hl') as (<- & <- & <-).
  rewrite (low32_unique _ _ _ Ln Ln'), (low32s_unique _ _ _ Ls Ls'). auto.
Qed.

Lemma decode32_at bytes p out : Forall is_byte bytes -> 0 <= p <= len bytes ->
  (exists tag o n q, hop32 bytes p tag o n q /\ tlv_decode32 (at_ bytes p) out = Ok (tag, at_ bytes q, option_map (fun _ => mkData (Some o) n) out)) \/
  ((forall tag o n q, ~ hop32 bytes p tag o n q) /\ tlv_decode32 (at_ bytes p) out = Ok (0, at_ bytes p, out)).
Proof.
  intros Hb Hp. destruct (decode32_cases (at_ bytes p) out (at_valid bytes p Hb Hp)) as [(t & tag & l & L & rest & E & Ht & Hg & Hl & Hs & R)|(R & N)].
  - left. apply (at_split bytes p _ Hp) in E. destruct E as (pre & E & Ep). exists tag, (p + len t + len l), (u32 L), (p + len t + len l + s32 L). split.
    + exists pre, t, l, rest, L, (s32 L). split; [auto|]. split; [auto|]. split; [auto|]. split; [auto|]. split; [auto|]. split; [apply u32_low|]. split; [apply s32_low|]. auto.
    + rewrite R. destruct out; reflexivity.
  - right. split; auto. intros tag o n q (pre & t & l & rest & L & s & E & Ep & Ht & Hg & Hl & Ln & Ls & Eo & H & _). apply (N t tag l L rest); auto.
    + apply (at_split bytes p _ Hp). eauto.
    + rewrite <- (low32s_unique _ _ _ Ls (s32_low L)). auto.
Qed.

(* What gutil_tlv_decode does at any position of any input: it takes what can be taken, or changes nothing *)
Theorem C95_decode_exact bytes p out : Forall is_byte bytes -> 0 <= p <= len bytes ->
  (exists tag o n q, hop32 bytes p tag o n q /\ tlv_decode32 (mkRange bytes p (len bytes)) out = Ok (tag, mkRange bytes q (len bytes), option_map (fun _ => mkData (Some o) n) out)) \/
  ((forall tag o n q, ~ hop32 bytes p tag o n q) /\ tlv_decode32 (mkRange bytes p (len bytes)) out = Ok (0, mkRange bytes p (len bytes), out)).
Proof. exact (decode32_at bytes p out). Qed.
Print Assumptions C95_decode_exact.

(* The value is outside of the input exactly if its size is 2^31 or more *)
Theorem C95_outside bytes p tag o n q : len bytes < 2^31 -> hop32 bytes p tag o n q -> (2^31 <= n <-> ~ (o + n <= len bytes)) /\ (2^31 <= n <-> q <> o + n) /\ (n < 2^31 -> p < q).
Proof.
  intros Hb (pre & t & l & rest & L & s & -> & -> & Ht & Hg & Hl & (Ln & k & En) & (Ls & k' & Es) & -> & H & ->). rewrite !len_app in *. pose proof (len_nonneg pre). pose proof (len_nonneg rest).
  destruct Ht as (Ht & _). destruct Hl as (Hl & _). apply mbn_shape_nonempty in Ht. apply mbn_shape_nonempty in Hl.
  assert (k' = k \/ k' = k + 1) as [->| ->] by nia; lia.
Qed.
Print Assumptions C95_outside.

Lemma tlvs_decode32_start fuel bytes tags vals skip : slots_enough tags vals -> tlvs_decode32 fuel bytes tags vals skip = tlvs_loop32 fuel (whole bytes) tags (start_vals tags vals) skip 0.
Proof.
  intros H. unfold tlvs_decode32. destruct vals as [o|]; cbn [bind start_vals]; auto.
  rewrite clear_vals_ok by exact H. reflexivity.
Qed.

(* One turn *)
Lemma loop32_turn bytes p tags vals skip m : Forall is_byte bytes -> 0 <= p <= len bytes ->
  (exists tag o n q, hop32 bytes p tag o n q /\ forall f, tlvs_loop32 (S f) (at_ bytes p) tags vals skip m =
     if tag =? 0 then Ok (if q =? len bytes then m else -1, vals)
     else match find_tag tags 0 tag with
          | Some i => if Z.testbit m i then Ok (-2, vals)
                      else match vals with
                           | Some v => do v <- wr v i (mkData (Some o) n); tlvs_loop32 f (at_ bytes q) tags (Some v) skip (Z.lor m (2^i))
                           | None => tlvs_loop32 f (at_ bytes q) tags None skip (Z.lor m (2^i))
                           end
          | None => if skip then tlvs_loop32 f (at_ bytes q) tags vals skip m else Ok (-3, vals)
          end) \/
  ((forall tag o n q, ~ hop32 bytes p tag o n q) /\ forall f, tlvs_loop32 (S f) (at_ bytes p) tags vals skip m = Ok (if p =? len bytes then m else -1, vals)).
Proof.
  intros Hb Hp. destruct (decode32_at bytes p (Some (mkData None 0)) Hb Hp) as [(tag & o & n & q & H & E)|(H & E)].
  - left. exists tag, o, n, q. split; auto. intros f. cbn [tlvs_loop32]. rewrite E. cbn [bind option_map]. destruct (tag =? 0); [reflexivity|]. destruct (find_tag tags 0 tag) as [i|] eqn:Ef; auto.
    apply find_tag_spec in Ef; [|lia]. rewrite land_pow_testbit by lia. reflexivity.
  - right. split; auto. intros f. cbn [tlvs_loop32]. rewrite E. reflexivity.
Qed.

Lemma loop32_outside bytes p f tags vals skip m : p < 0 -> tlvs_loop32 (S f) (at_ bytes p) tags vals skip m = Fail OobRead.
Proof.
  intros Hp. cbn [tlvs_loop32]. unfold tlv_decode32, unsigned_mbn_decode, at_. cbn [r_ptr r_end r_mem]. pose proof (len_nonneg bytes). replace (p <? len bytes) with true by lia.
  unfold rd. destruct p; try lia. reflexivity.
Qed.

Lemma state32_step bytes tags skip old es m vals p tag o n q : Forall is_byte bytes -> slots_enough tags old -> good_state tags old es m vals -> hop32 bytes p tag o n q -> tag <> 0 ->
  (requested tags tag -> ~ In tag (map fst es)) -> (~ requested tags tag -> skip = true) ->
  exists m' vals', (forall f, tlvs_loop32 (S f) (at_ bytes p) tags vals skip m = tlvs_loop32 f (at_ bytes q) tags vals' skip m') /\ good_state tags old (es ++ [(tag, (o, n))]) m' vals' /\ (~ requested tags tag -> m' = m /\ vals' = vals).
Proof.
  intros Hb Hs (M & F) H Hz R1 R2. pose proof (hop32_pos _ _ _ _ _ _ H) as (Hp & _). destruct (loop32_turn bytes p tags vals skip m Hb Hp) as [(tag' & o' & n' & q' & H' & E)|(N & _)]; [|destruct (N _ _ _ _ H)].
  destruct (hop32_det _ _ _ _ _ _ _ _ _ _ H H') as (<- & <- & <- & <-). replace (tag =? 0) with false in E by lia. destruct (requested_find tags tag) as [(i & Ei & Hi & Fi & R)|(Ei & R)]; rewrite Ei in E.
  - destruct (Z.testbit m i) eqn:T; [exfalso|]. { apply marked_mask in M. apply (mask_bit tags _ m i tag M) in T; auto. rewrite bare_fst in T. destruct (R1 R T). }
    assert (M' : marked tags (es ++ [(tag, (o, n))]) (Z.lor m (2^i))). { apply marked_mask. rewrite bare_app. apply mask_ok_add; auto. apply marked_mask. auto. }
    destruct vals as [v|], old as [ol|]; cbn in F; try contradiction.
    + assert (Z.to_nat i < length ol)%nat as Hio. { cbn in Hs. destruct Fi as (N1 & _). assert (Z.to_nat i < length tags)%nat by (apply nth_error_Some; congruence). lia. }
      rewrite wr_in in E by (destruct F as (L & _); unfold len; lia). cbn [bind] in E. eexists. eexists. split; [exact E|]. split; [split; auto; apply filled_add; auto|contradiction].
    + eexists. eexists. split; [exact E|]. split; [split; auto; exact Logic.I|contradiction].
  - rewrite (R2 R) in *. exists m, vals. split; [exact E|]. split; auto. split; [apply marked_mask; rewrite bare_app; apply mask_ok_skip; auto; apply marked_mask; auto|apply filled_skip; auto].
Qed.

Lemma walk32_state bytes tags skip old p es : Forall is_byte bytes -> slots_enough tags old -> walk32 bytes tags skip p es ->
  exists m vals, good_state tags old es m vals /\ p <= len bytes /\ forall f, tlvs_decode32 (length es + f) bytes tags old skip = tlvs_loop32 f (at_ bytes p) tags vals skip m.
Proof.
  intros Hb Hs W. induction W as [|p es tag o n q W (m & vals & G & Hp & E) H Hz R1 R2].
  - exists 0, (start_vals tags old). split; [split; [|apply filled_start; auto]|].
    + split; [lia|]. intros i Hi. rewrite Z.bits_0. split; [discriminate|]. intros (t & _ & _ & []).
    + split; [apply len_nonneg|]. intros f. apply tlvs_decode32_start. auto.
  - destruct (state32_step bytes tags skip old es m vals p tag o n q Hb Hs G H Hz R1 R2) as (m' & vals' & E' & G' & _).
    exists m', vals'. split; auto. split; [apply (hop32_pos _ _ _ _ _ _ H)|]. intros f. rewrite app_length. cbn [length]. replace (length es + 1 + f)%nat with (length es + S f)%nat by lia. rewrite E. apply E'.
Qed.

(* how it can end, after es and at position p *)
Definition ends32 (bytes tags : list Z) (skip : bool) (p : Z) (es : list (Z * (Z * Z))) (code : Z) : Prop :=
  (marked tags es code /\ (p = len bytes \/ exists o n, hop32 bytes p 0 o n (len bytes))) \/
  (code = -1 /\ 0 <= p < len bytes /\ forall tag o n q, hop32 bytes p tag o n q -> tag = 0 /\ q <> len bytes) \/
  (code = -2 /\ exists tag o n q, hop32 bytes p tag o n q /\ requested tags tag /\ In tag (map fst es)) \/
  (code = -3 /\ skip = false /\ exists tag o n q, hop32 bytes p tag o n q /\ tag <> 0 /\ ~ requested tags tag).

Lemma hop32_end bytes tag o n q : ~ hop32 bytes (len bytes) tag o n q.
Proof.
  intros (pre & t & l & rest & L & s & E & Ep & (Ht & _) & _). apply mbn_shape_nonempty in Ht. apply (f_equal len) in E. rewrite !len_app in E. pose proof (len_nonneg l). pose proof (len_nonneg rest). lia.
Qed.

Lemma loop32_exact bytes tags skip old : Forall is_byte bytes -> slots_enough tags old -> ~ In 0 tags -> forall f p es m vals, walk32 bytes tags skip p es -> good_state tags old es m vals -> p <= len bytes ->
  match tlvs_loop32 f (at_ bytes p) tags vals skip m with
  | Ok (code, new) => exists p' es', walk32 bytes tags skip p' es' /\ ends32 bytes tags skip p' es' code /\ filled tags es' old new
  | Fail NoFuel => exists p' es', walk32 bytes tags skip p' es' /\ length es' = (length es + f)%nat
  | Fail e => e = OobRead /\ exists p' es', walk32 bytes tags skip p' es' /\ p' < 0
  end.
Proof.
  intros Hb Hs H0. induction f as [|f IH]; intros p es m vals W G Hp.
  - cbn [tlvs_loop32]. exists p, es. split; auto.
  - destruct (Z_lt_dec p 0) as [N|N]. { rewrite loop32_outside by auto. split; auto. exists p, es. auto. }
    destruct (loop32_turn bytes p tags vals skip m Hb ltac:(lia)) as [(tag & o & n & q & H & E)|(X & E)]; specialize (E f).
    + destruct (Z.eq_dec tag 0) as [->|Hz].
      * rewrite E. cbn [Z.eqb]. exists p, es. split; auto. split; [|apply G]. destruct (q =? len bytes) eqn:Eq; [left|right; left].
        -- split; [apply G|]. right. replace q with (len bytes) in H by lia. eauto.
        -- split; auto. split. { destruct (Z.eq_dec p (len bytes)) as [->|]; [destruct (hop32_end _ _ _ _ _ H)|lia]. } intros tag' o' n' q' H'. destruct (hop32_det _ _ _ _ _ _ _ _ _ _ H H') as (<- & _ & _ & <-). split; auto; lia.
      * destruct (requested_find tags tag) as [(i & Ei & Hi & Fi & R)|(Ei & R)].
        -- destruct (in_dec Z.eq_dec tag (map fst es)) as [Hin|Hin].
           ++ replace (tag =? 0) with false in E by lia. rewrite Ei in E. destruct G as (M & F). apply marked_mask in M. assert (T : Z.testbit m i = true) by (apply (mask_bit tags _ m i tag M); auto; rewrite bare_fst; auto).
              rewrite T in E. rewrite E. exists p, es. split; auto. split; [|auto]. right. right. left. split; auto. exists tag, o, n, q. auto.
           ++ destruct (state32_step bytes tags skip old es m vals p tag o n q Hb Hs G H Hz (fun _ => Hin) ltac:(contradiction)) as (m' & vals' & E' & G' & _). rewrite E'.
              specialize (IH q (es ++ [(tag, (o, n))]) m' vals'). destruct (tlvs_loop32 f (at_ bytes q) tags vals' skip m') as [(code & new)|e] eqn:El.
              ** apply IH; auto; [eapply walk32_hop; eauto; contradiction|apply (hop32_pos _ _ _ _ _ _ H)].
              ** rewrite app_length in IH. cbn [length] in IH. replace (length es + S f)%nat with (length es + 1 + f)%nat by lia. apply IH; auto; [eapply walk32_hop; eauto; contradiction|apply (hop32_pos _ _ _ _ _ _ H)].
        -- destruct skip.
           ++ destruct (state32_step bytes tags true old es m vals p tag o n q Hb Hs G H Hz ltac:(contradiction) (fun _ => eq_refl)) as (m' & vals' & E' & G' & _). rewrite E'.
              specialize (IH q (es ++ [(tag, (o, n))]) m' vals'). destruct (tlvs_loop32 f (at_ bytes q) tags vals' true m') as [(code & new)|e] eqn:El.
              ** apply IH; auto; [eapply walk32_hop; eauto; contradiction|apply (hop32_pos _ _ _ _ _ _ H)].
              ** rewrite app_length in IH. cbn [length] in IH. replace (length es + S f)%nat with (length es + 1 + f)%nat by lia. apply IH; auto; [eapply walk32_hop; eauto; contradiction|apply (hop32_pos _ _ _ _ _ _ H)].
           ++ replace (tag =? 0) with false in E by lia. rewrite Ei in E. rewrite E. exists p, es. split; auto. split; [|apply G]. right. right. right. split; auto. split; auto. exists tag, o, n, q. auto.
    + rewrite E. exists p, es. split; auto. split; [|apply G]. destruct (p =? len bytes) eqn:Ep; [left; split; [apply G|left; lia]|right; left]. split; auto. split; [lia|]. intros tag o n q H. destruct (X _ _ _ _ H).
Qed.

(* What gutil_tlvs_decode returns for any input, and what is in the array; and that it reads in front of the input exactly if it gets there *)
Theorem C95_list_exact bytes tags skip old fuel : Forall is_byte bytes -> slots_enough tags old -> ~ In 0 tags ->
  match tlvs_decode32 fuel bytes tags old skip with
  | Ok (code, new) => exists p es, walk32 bytes tags skip p es /\ ends32 bytes tags skip p es code /\ filled tags es old new
  | Fail NoFuel => exists p es, walk32 bytes tags skip p es /\ length es = fuel
  | Fail e => e = OobRead /\ exists p es, walk32 bytes tags skip p es /\ p < 0
  end.
Proof.
  intros Hb Hs H0. destruct (walk32_state bytes tags skip old 0 [] Hb Hs (walk32_nil _ _ _)) as (m & vals & G & Hp & E). pose proof (E fuel) as Ef. cbn [length Nat.add] in Ef. rewrite Ef. exact (loop32_exact bytes tags skip old Hb Hs H0 fuel 0 [] m vals (walk32_nil _ _ _) G Hp).
Qed.
Print Assumptions C95_list_exact.

(* ---------------- when it ends ---------------- *)

Lemma walk32_prefix bytes tags skip : forall q es es', walk32 bytes tags skip q (es ++ es') -> exists p, walk32 bytes tags skip p es.
Proof.
  intros q es es'. revert q. induction es' as [|e es' IH] using rev_ind; intros q W; [rewrite app_nil_r in W; eauto|].
  rewrite app_assoc in W. remember ((es ++ es') ++ [e]) as l eqn:El. destruct W as [|p es0 tag o n q W H Hz R1 R2]; [destruct (es ++ es'); discriminate|].
  apply app_inj_tail in El. destruct El as (-> & _). eauto.
Qed.

Lemma walk32_det bytes tags skip p es : walk32 bytes tags skip p es -> forall q, walk32 bytes tags skip q es -> p = q.
Proof.
  induction 1 as [|p es tag o n p' W IH H Hz R1 R2]; intros q W'.
  - remember [] as l eqn:El. destruct W' as [|? es' ? ? ? ? ? ? ? ? ?]; auto. destruct es'; discriminate.
  - remember (es ++ [(tag, (o, n))]) as l eqn:El. destruct W' as [|p2 es2 tag2 o2 n2 q W2 H2 Hz2 _ _]; [destruct es; discriminate|]. apply app_inj_tail in El. destruct El as (-> & E). injection E as -> -> ->.
    rewrite (IH _ W2) in H. apply (hop32_det _ _ _ _ _ _ _ _ _ _ H H2).
Qed.

(* going around *)
Lemma around32 bytes tags skip old p es : Forall is_byte bytes -> slots_enough tags old -> walk32 bytes tags skip p es -> forall es2 q m vals, walk32 bytes tags skip q (es ++ es2) -> Forall (fun e => ~ requested tags (fst e)) es2 ->
  good_state tags old es m vals -> good_state tags old (es ++ es2) m vals /\ forall f, tlvs_loop32 (length es2 + f) (at_ bytes p) tags vals skip m = tlvs_loop32 f (at_ bytes q) tags vals skip m.
Proof.
  intros Hb Hs W es2. induction es2 as [|e es2 IH] using rev_ind; intros q m vals W2 F G.
  - rewrite app_nil_r in *. rewrite (walk32_det _ _ _ _ _ W q W2). split; auto.
  - rewrite app_assoc in W2. remember ((es ++ es2) ++ [e]) as l eqn:El. destruct W2 as [|p2 es0 tag o n q W2 H Hz R1 R2]; [destruct (es ++ es2); discriminate|].
    apply app_inj_tail in El. destruct El as (-> & <-). apply Forall_app in F. destruct F as (F & Fe). apply Forall_inv in Fe. cbn [fst] in Fe. destruct (IH p2 m vals W2 F G) as (G2 & E2).
    destruct (state32_step bytes tags skip old (es ++ es2) m vals p2 tag o n q Hb Hs G2 H Hz R1 R2) as (m' & vals' & E' & G' & U). destruct (U Fe) as (-> & ->).
    rewrite app_assoc. split; auto. intros f. rewrite app_length. cbn [length]. replace (length es2 + 1 + f)%nat with (length es2 + S f)%nat by lia. rewrite E2. apply E'.
Qed.

Lemma loop32_more tags skip : forall f r vals m k x, tlvs_loop32 f r tags vals skip m = x -> x <> Fail NoFuel -> tlvs_loop32 (f + k) r tags vals skip m = x.
Proof.
  induction f as [|f IH]; intros r vals m k x E N; [cbn in E; congruence|]. cbn [Nat.add tlvs_loop32] in *. destruct (tlv_decode32 r (Some (mkData None 0))) as [((tag, r'), val)|e]; cbn [bind] in *; [|auto].
  destruct (tag =? 0); [auto|]. destruct val as [val|]; [|auto]. destruct (find_tag tags 0 tag) as [i|].
  - destruct (negb (Z.land m (2 ^ i) =? 0)); [auto|]. destruct vals as [v|]; [destruct (wr v i val); cbn [bind] in *; [apply IH; auto|auto]|apply IH; auto].
  - destruct skip; [apply IH; auto|auto].
Qed.

Lemma asked_few32 bytes tags skip p es : walk32 bytes tags skip p es -> NoDup (asked tags es) /\ incl (asked tags es) (firstn 31 tags).
Proof.
  intros W. split; [|intros t H; apply filter_In in H; destruct H as (_ & H); destruct (in_dec Z.eq_dec t (firstn 31 tags)); auto; discriminate].
  induction W as [|p es tag o n q W IH H Hz R1 R2]; [constructor|]. unfold asked in *. rewrite map_app, filter_app. cbn [map filter fst]. destruct (in_dec Z.eq_dec tag (firstn 31 tags)) as [I|I]; [|rewrite app_nil_r; auto].
  apply nodup_snoc; auto. intros X. apply filter_In in X. apply (R1 I). apply X.
Qed.

(* where it was, and how many of the tags asked for had been met *)
Lemma visited32 bytes tags skip q es : walk32 bytes tags skip q es -> exists L : list (nat * nat), length L = length es /\
  forall i x, nth_error L i = Some x -> exists p, walk32 bytes tags skip p (firstn i es) /\ x = (Z.to_nat p, length (asked tags (firstn i es))) /\ 0 <= p <= len bytes.
Proof.
  induction 1 as [|p es tag o n q W (L & EL & HL) H Hz R1 R2].
  - exists []. split; auto. intros [|i] x; discriminate.
  - exists (L ++ [(Z.to_nat p, length (asked tags es))]). split; [rewrite !app_length; cbn; lia|]. intros i x E. destruct (Nat.lt_ge_cases i (length L)) as [Hi|Hi].
    + rewrite nth_error_app1 in E by auto. rewrite firstn_app. replace (i - length es)%nat with O by lia. cbn [firstn]. rewrite app_nil_r. auto.
    + assert (i = length L) as ->. { assert (i < length (L ++ [(Z.to_nat p, length (asked tags es))]))%nat by (apply nth_error_Some; congruence). rewrite app_length in *. cbn in *. lia. }
      rewrite nth_error_app2, Nat.sub_diag in E by auto. injection E as <-. exists p. rewrite EL, firstn_app, Nat.sub_diag, firstn_all. cbn [firstn]. rewrite app_nil_r. split; auto. split; auto. apply (hop32_pos _ _ _ _ _ _ H).
Qed.

(* It does not return exactly if it comes to a position where it has been, meeting only tags not asked for in between *)
Theorem C95_terminates_exact bytes tags skip old : Forall is_byte bytes -> slots_enough tags old -> ~ In 0 tags ->
  ((forall fuel, tlvs_decode32 fuel bytes tags old skip = Fail NoFuel) <->
   exists p es es2, walk32 bytes tags skip p es /\ walk32 bytes tags skip p (es ++ es2) /\ es2 <> [] /\ Forall (fun e => ~ requested tags (fst e)) es2).
Proof.
  intros Hb Hs H0. split.
  - intros N. set (K := ((length bytes + 1) * 32 + 1)%nat). pose proof (C95_list_exact bytes tags skip old K Hb Hs H0) as E. rewrite N in E. destruct E as (q & es & W & EK). destruct (visited32 bytes tags skip q es W) as (L & EL & HL).
    assert (incl L (list_prod (seq 0 (length bytes + 1)) (seq 0 32))) as I.
    { intros x Hx. apply In_nth_error in Hx. destruct Hx as (i & Hi). destruct (HL i x Hi) as (p & Wp & -> & Hp). apply in_prod; apply in_seq; [unfold len in Hp; lia|].
      destruct (asked_few32 _ _ _ _ _ Wp) as (Nd & In31). pose proof (NoDup_incl_length Nd In31). pose proof (firstn_le_length 31 tags). lia. }
    destruct (not_nodup L) as (a & l1 & l2 & l3 & EqL).
    { intros Nd. pose proof (NoDup_incl_length Nd I) as X. rewrite prod_length, !seq_length in X. unfold K in EK. lia. }
    destruct (HL (length l1) a) as (p & Wp & Ea & Hp). { rewrite EqL, nth_error_app2, Nat.sub_diag by auto. reflexivity. }
    destruct (HL (length l1 + S (length l2))%nat a) as (p' & Wp' & Ea' & Hp'). { rewrite EqL, nth_error_app2 by lia. replace (length l1 + S (length l2) - length l1)%nat with (S (length l2)) by lia. cbn [nth_error app]. rewrite nth_error_app2, Nat.sub_diag by auto. reflexivity. }
    rewrite Ea in Ea'. injection Ea' as Ep Ec. assert (p = p') as <- by lia. set (i := length l1) in *. set (j := S (length l2)) in *.
    assert (Hl : (i + j < length es)%nat). { rewrite <- EL, EqL. rewrite app_length. cbn [length]. rewrite app_length. cbn [length]. unfold i, j. lia. }
    assert (firstn (i + j) es = firstn i es ++ firstn j (skipn i es)) as Ej.
    { rewrite <- (firstn_skipn i es) at 1. rewrite firstn_app, firstn_firstn, firstn_length. replace (Nat.min (i + j) i) with i by lia. replace (i + j - Nat.min i (length es))%nat with j by lia. reflexivity. }
    exists p, (firstn i es), (firstn j (skipn i es)). rewrite <- Ej. split; [auto|]. split; [auto|]. split.
    + intros X. apply (f_equal (@length _)) in X. rewrite firstn_length, skipn_length in X. cbn [length] in X. assert (1 <= j)%nat by (unfold j; lia). lia.
    + rewrite Ej in Ec. unfold asked in Ec. rewrite map_app, filter_app, app_length in Ec. apply Forall_forall. intros e He R. assert (In (fst e) (asked tags (firstn j (skipn i es)))) as X.
      { apply filter_In. split; [apply in_map; auto|]. destruct (in_dec Z.eq_dec (fst e) (firstn 31 tags)); auto. }
      unfold asked in X. destruct (filter _ (map fst (firstn j (skipn i es)))); [destruct X|]. cbn [length] in Ec. lia.
  - intros (p & es & es2 & W & W2 & Ne & F) fuel. destruct (walk32_state bytes tags skip old p es Hb Hs W) as (m & vals & G & Hp & E).
    destruct (around32 bytes tags skip old p es Hb Hs W es2 p m vals W2 F G) as (_ & A).
    assert (T : forall k, tlvs_loop32 (k * length es2) (at_ bytes p) tags vals skip m = Fail NoFuel).
    { induction k as [|k IH]; [reflexivity|]. cbn [Nat.mul]. rewrite A. exact IH. }
    assert (NF : tlvs_decode32 (length es + fuel * length es2) bytes tags old skip = Fail NoFuel) by (rewrite E; apply T).
    rewrite tlvs_decode32_start in * by auto. destruct (tlvs_loop32 fuel (whole bytes) tags (start_vals tags old) skip 0) as [x|e] eqn:El.
    + exfalso. assert (1 <= length es2)%nat by (destruct es2; [congruence|cbn; lia]). replace (length es + fuel * length es2)%nat with (fuel + (length es + fuel * length es2 - fuel))%nat in NF by nia.
      rewrite (loop32_more tags skip fuel _ _ _ _ _ El ltac:(discriminate)) in NF. discriminate.
    + destruct e; auto; exfalso; (assert (1 <= length es2)%nat by (destruct es2; [congruence|cbn; lia]); replace (length es + fuel * length es2)%nat with (fuel + (length es + fuel * length es2 - fuel))%nat in NF by nia;
      rewrite (loop32_more tags skip fuel _ _ _ _ _ El ltac:(discriminate)) in NF; discriminate).
Qed.
Print Assumptions C95_terminates_exact.

(* It reads in front of the input exactly if it gets there *)
Theorem C95_reads_exact bytes tags skip old : Forall is_byte bytes -> slots_enough tags old -> ~ In 0 tags ->
  ((exists fuel, tlvs_decode32 fuel bytes tags old skip = Fail OobRead) <-> exists p es, walk32 bytes tags skip p es /\ p < 0).
Proof.
  intros Hb Hs H0. split.
  - intros (fuel & E). pose proof (C95_list_exact bytes tags skip old fuel Hb Hs H0) as X. rewrite E in X. apply X.
  - intros (p & es & W & Hp). destruct (walk32_state bytes tags skip old p es Hb Hs W) as (m & vals & _ & _ & E). exists (length es + 1)%nat. rewrite E. apply loop32_outside. auto.
Qed.
Print Assumptions C95_reads_exact.

Lemma back_hop : hop32 (back_tlv 122) 0 1 6 (2^32 - 6) 0.
Proof.
  exists [], [1], [143;255;255;255;122], [], (2^32 - 6), (-6). split; [reflexivity|]. split; [reflexivity|]. split; [split; [exists [], 1; repeat split; auto; lia|]; repeat split; vm_compute; congruence|]. split; [lia|].
  split; [split; [exists [143;255;255;255], 122; split; [reflexivity|]; split; [repeat constructor; lia|lia]|]; repeat split; vm_compute; congruence|].
  split; [split; [lia|exists 0; lia]|]. split; [split; [lia|exists 1; lia]|]. split; [reflexivity|]. split; [cbn; lia|reflexivity].
Qed.
Example C95_example_decode : hop32 (back_tlv 122) 0 1 6 (2^32 - 6) 0 /\ len (back_tlv 122) < 2^31 /\ tlv_decode32 (mkRange (back_tlv 122) 0 (len (back_tlv 122))) None = Ok (1, mkRange (back_tlv 122) 0 6, None).
Proof. split; [exact back_hop|]. split; reflexivity. Qed.
(* around and around *)
Example C95_example_around : exists p es es2, walk32 (back_tlv 122) [2] true p es /\ walk32 (back_tlv 122) [2] true p (es ++ es2) /\ es2 <> [] /\ Forall (fun e => ~ requested [2] (fst e)) es2.
Proof.
  exists 0, [], [(1, (6, 2^32 - 6))]. split; [constructor|]. split; [|split; [discriminate|repeat constructor; intros [X|[]]; discriminate]].
  apply (walk32_hop (back_tlv 122) [2] true 0 [] 1 6 (2^32 - 6) 0); [constructor|exact back_hop|discriminate|intros _ []|auto].
Qed.
(* tag 2 is found in spite of tag 1 in front of it *)
Example C95_example_exact : exists p es new, walk32 [1; 1; 7; 2; 2; 8; 9] [2] true p es /\ ends32 [1; 1; 7; 2; 2; 8; 9] [2] true p es 1 /\ filled [2] es (Some [mkData None 5]) new /\
  tlvs_decode32 9 [1; 1; 7; 2; 2; 8; 9] [2] (Some [mkData None 5]) true = Ok (1, new) /\ new = Some [mkData (Some 5) 2].
Proof.
  pose proof (C95_list_exact [1; 1; 7; 2; 2; 8; 9] [2] true (Some [mkData None 5]) 9) as X. assert (E : tlvs_decode32 9 [1; 1; 7; 2; 2; 8; 9] [2] (Some [mkData None 5]) true = Ok (1, Some [mkData (Some 5) 2])) by (vm_compute; reflexivity).
  rewrite E in X. destruct X as (p & es & W & En & F); [repeat constructor; lia|cbn; lia|intros [Y|[]]; discriminate|]. exists p, es, (Some [mkData (Some 5) 2]). auto.
Qed.
