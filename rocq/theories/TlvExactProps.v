(* C10 to C14 once more: what the TLV functions do with any input, lengths of 2^63 and more included *)
From Verif Require Import Base DatapackModel DatapackSpec DatapackProofs DatapackProofs2 DatapackTlv DatapackProps.
From Coq Require Import ZifyBool.

(* At position p of the input there is a tag and the length n of a value which would begin at o. The next TLV is looked for at q: a length of 2^63 or more moves backwards. *)
Definition hop (bytes : list Z) (p tag o n q : Z) : Prop :=
  exists pre t l rest, bytes = pre ++ t ++ l ++ rest /\ p = len pre /\ ubn t tag /\ tag <= 2^31 - 1 /\ ubn l n /\ o = p + len t + len l /\
    ((n < 2^63 /\ n <= len rest /\ q = o + n) \/ (2^63 <= n /\ q = o + n - 2^64)).

(* es are the tags met so far, each with position and length of the value, and p is where the next one is looked for *)
Inductive walk (bytes tags : list Z) (skip : bool) : Z -> list (Z * (Z * Z)) -> Prop :=
| walk_nil : walk bytes tags skip 0 []
| walk_hop p es tag o n q : walk bytes tags skip p es -> hop bytes p tag o n q -> tag <> 0 -> (requested tags tag -> ~ In tag (map fst es)) -> (~ requested tags tag -> skip = true) -> walk bytes tags skip q (es ++ [(tag, (o, n))]).

(* the array of values *)
Definition filled (tags : list Z) (es : list (Z * (Z * Z))) (old new : option (list data)) : Prop :=
  match old, new with
  | None, None => True
  | Some o, Some n => length n = length o /\ forall i, (i < length o)%nat ->
      (forall t a k, first_at tags i t -> (i < 31)%nat -> In (t, (a, k)) es -> nth_error n i = Some (mkData (Some a) k)) /\
      ((i < length tags)%nat -> (forall t, first_at tags i t -> (i < 31)%nat -> ~ In t (map fst es)) -> nth_error n i = Some (mkData None 0)) /\
      ((length tags <= i)%nat -> nth_error n i = nth_error o i)
  | _, _ => False
  end.

(* bit i is set if the i-th tag has been met *)
Definition marked (tags : list Z) (es : list (Z * (Z * Z))) (m : Z) : Prop :=
  0 <= m < 2^31 /\ forall i, 0 <= i -> (Z.testbit m i = true <-> exists t, i < 31 /\ first_at tags (Z.to_nat i) t /\ In t (map fst es)).

Definition bare (es : list (Z * (Z * Z))) : list (Z * list Z) := map (fun e => (fst e, [])) es.
Lemma bare_fst es : map fst (bare es) = map fst es.
Proof. unfold bare. rewrite map_map. reflexivity. Qed.
Lemma marked_mask tags es m : marked tags es m <-> mask_ok tags (bare es) m.
Proof. unfold marked, mask_ok. rewrite bare_fst. tauto. Qed.
Lemma bare_app es tag x : bare (es ++ [(tag, x)]) = bare es ++ [(tag, [])].
Proof. apply map_app. Qed.

Definition at_ (bytes : list Z) (p : Z) : range := mkRange bytes p (len bytes).
Lemma at_valid bytes p : Forall is_byte bytes -> 0 <= p <= len bytes -> valid_range (at_ bytes p).
Proof. intros. repeat split; cbn; auto; lia. Qed.
Lemma at_content bytes p : 0 <= p <= len bytes -> content (at_ bytes p) = skipn (Z.to_nat p) bytes.
Proof. intros. unfold content, at_, slice. cbn. apply firstn_all2. rewrite skipn_length. unfold len in *. lia. Qed.
Lemma at_split bytes p x : 0 <= p <= len bytes -> (content (at_ bytes p) = x <-> exists pre, bytes = pre ++ x /\ p = len pre).
Proof.
  intros H. rewrite at_content by auto. split.
  - intros <-. exists (firstn (Z.to_nat p) bytes). split; [symmetry; apply firstn_skipn|]. unfold len in *. rewrite firstn_length. lia.
  - intros (pre & -> & ->). rewrite skipn_app, skipn_all2, app_nil_l by (unfold len; lia). replace (Z.to_nat (len pre) - length pre)%nat with O by (unfold len; lia). reflexivity.
Qed.

Lemma s64_cases L : 0 <= L < 2^64 -> (L < 2^63 /\ s64 L = L) \/ (2^63 <= L /\ s64 L = L - 2^64).
Proof. intros H. destruct (Z.ltb_spec L (2^63)); [left; split; auto; apply s64_small; lia|right; split; auto; apply s64_large; lia]. Qed.

Lemma hop_pos bytes p tag o n q : hop bytes p tag o n q -> 0 <= p <= len bytes /\ 0 <= tag <= 2^31 - 1 /\ q <= len bytes /\ 0 <= n < 2^64.
Proof.
  intros (pre & t & l & rest & -> & -> & Ht & Hg & Hl & -> & H). rewrite !len_app. pose proof (len_nonneg pre). pose proof (len_nonneg t). pose proof (len_nonneg l). pose proof (len_nonneg rest).
  pose proof (ubn_nonneg _ _ Ht). pose proof (ubn_nonneg _ _ Hl). lia.
Qed.

Lemma app_same {A} (x y x' y' : list A) : x ++ y = x' ++ y' -> length x = length x' -> x = x' /\ y = y'.
Proof.
  revert x'. induction x as [|c x IH]; intros [|c' x'] E L; try discriminate; [auto|]. injection E as -> E. injection L as L. destruct (IH x' E L) as (-> & ->). auto.
Qed.

Lemma hop_det bytes p tag o n q tag' o' n' q' : hop bytes p tag o n q -> hop bytes p tag' o' n' q' -> tag = tag' /\ o = o' /\ n = n' /\ q = q'.
Proof.
  intros (pre & t & l & rest & -> & -> & Ht & Hg & Hl & -> & H) (pre' & t' & l' & rest' & E & Ep & Ht' & Hg' & Hl' & -> & H').
  assert (pre = pre' /\ t ++ l ++ rest = t' ++ l' ++ rest') as (<- & E').
  { apply app_same in E; auto. unfold len in Ep. lia. }
  destruct (ubn_unique _ _ _ _ _ _ E' Ht Ht') as (<- & <- & E''). destruct (ubn_unique _ _ _ _ _ _ E'' Hl Hl') as (<- & <- & <-). lia.
Qed.

Lemma decode_at bytes p out : Forall is_byte bytes -> 0 <= p <= len bytes ->
  (exists tag o n q, hop bytes p tag o n q /\ tlv_decode (at_ bytes p) out = Ok (tag, at_ bytes q, option_map (fun _ => mkData (Some o) n) out)) \/
  ((forall tag o n q, ~ hop bytes p tag o n q) /\ tlv_decode (at_ bytes p) out = Ok (0, at_ bytes p, out)).
Proof.
  intros Hb Hp. destruct (tlv_decode_cases (at_ bytes p) out (at_valid bytes p Hb Hp)) as [(t & tag & l & L & rest & E & Ht & Hg & Hl & Hs & R)|(R & N)].
  - left. apply (at_split bytes p _ Hp) in E. destruct E as (pre & E & Ep). pose proof (ubn_nonneg _ _ Hl) as HL. exists tag, (p + len t + len l), L, (p + len t + len l + s64 L). split.
    + exists pre, t, l, rest. split; [auto|]. split; [auto|]. split; [auto|]. split; [auto|]. split; [auto|]. split; [auto|]. destruct (s64_cases L HL); lia.
    + rewrite R. destruct out; reflexivity.
  - right. split; auto. intros tag o n q (pre & t & l & rest & E & Ep & Ht & Hg & Hl & Eo & H). apply (N t tag l n rest); auto.
    + apply (at_split bytes p _ Hp). eauto.
    + pose proof (ubn_nonneg _ _ Hl). pose proof (len_nonneg rest). destruct (s64_cases n); lia.
Qed.

(* ---------------- C10, C13, C14 ---------------- *)

(* What gutil_tlv_decode does at any position of any input: it takes what can be taken, or changes nothing *)
Theorem C10_exact bytes p out : Forall is_byte bytes -> 0 <= p <= len bytes ->
  (exists tag o n q, hop bytes p tag o n q /\ tlv_decode (mkRange bytes p (len bytes)) out = Ok (tag, mkRange bytes q (len bytes), option_map (fun _ => mkData (Some o) n) out)) \/
  ((forall tag o n q, ~ hop bytes p tag o n q) /\ tlv_decode (mkRange bytes p (len bytes)) out = Ok (0, mkRange bytes p (len bytes), out)).
Proof. exact (decode_at bytes p out). Qed.
Print Assumptions C10_exact.

(* The value is outside of the input exactly if its length is 2^63 or more *)
Theorem C10_outside bytes p tag o n q : len bytes < 2^63 -> hop bytes p tag o n q -> (2^63 <= n <-> ~ (o + n <= len bytes)) /\ (2^63 <= n <-> q <> o + n) /\ (n < 2^63 -> p < q).
Proof.
  intros Hb (pre & t & l & rest & -> & -> & Ht & Hg & Hl & -> & H). rewrite !len_app in *. pose proof (len_nonneg pre). pose proof (len_nonneg rest).
  pose proof (ubn_nonneg _ _ Hl) as HL. destruct Ht as (Ht & _). destruct Hl as (Hl & _). apply mbn_shape_nonempty in Ht. apply mbn_shape_nonempty in Hl. lia.
Qed.
Print Assumptions C10_outside.

(* gutil_tlv_size for all sizes *)
Theorem C14_exact tag l : 0 <= tag < 2^32 -> in_u64 l -> exists a b, least_size (fits_u tag) a /\ least_size (fits_u l) b /\ tlv_size tag l = Ok ((a + b + l) mod 2^32).
Proof.
  intros Ht Hl. destruct (unsigned_size_spec tag) as (a & Ea & La & _); [unfold in_u64; lia|]. destruct (unsigned_size_spec l Hl) as (b & Eb & Lb & _).
  exists a, b. split; [auto|]. split; [auto|]. apply tlv_size_spec; auto.
Qed.
Print Assumptions C14_exact.

(* ---------------- lists ---------------- *)

Lemma filled_start tags old : slots_enough tags old -> filled tags [] old (start_vals tags old).
Proof.
  intros H. destruct (start_state [] tags true old H) as (_ & _ & V). unfold vals_ok in V. unfold filled. destruct old as [o|]; cbn [start_vals] in *; auto.
  destruct V as (L & V). split; auto. intros i Hi. destruct (V i Hi) as (_ & B & C). split; [intros t a k _ _ []|]. split; auto.
Qed.

Lemma filled_skip tags es old new t x : filled tags es old new -> ~ requested tags t -> filled tags (es ++ [(t, x)]) old new.
Proof.
  unfold filled. destruct old as [o|], new as [n|]; auto. intros (L & H) Hn. split; auto. intros i Hi. destruct (H i Hi) as (A & B & C).
  assert (forall u, first_at tags i u -> (i < 31)%nat -> u <> t) as Hu.
  { intros u F H31 ->. apply Hn. apply find_tag_requested. exists (Z.of_nat i). apply find_tag_spec; [lia|]. rewrite Z.sub_0_r, Nat2Z.id. split; [lia|auto]. }
  split; [|split; auto].
  - intros u a k F H31 Hin. apply in_app_iff in Hin. destruct Hin as [Hin|[E|[]]]; [eauto|]. injection E as -> _. exfalso. eapply Hu; eauto.
  - intros Hlt Hno. apply B; auto. intros u F H31 Hin. apply (Hno u F H31). rewrite map_app, in_app_iff. auto.
Qed.

Lemma filled_add tags es o n i t a k : filled tags es (Some o) (Some n) -> 0 <= i < 31 -> first_at tags (Z.to_nat i) t -> ~ In t (map fst es) -> (Z.to_nat i < length o)%nat ->
  filled tags (es ++ [(t, (a, k))]) (Some o) (Some (upd n (Z.to_nat i) (mkData (Some a) k))).
Proof.
  intros (L & H) Hi Hf Hnew Hlen. split; [rewrite upd_length; auto|]. intros j Hj. destruct (H j Hj) as (A & B & C). destruct (Nat.eq_dec j (Z.to_nat i)) as [->|Hne].
  - rewrite nth_error_upd_eq by lia. split; [|split].
    + intros u a' k' F H31 Hin. pose proof (first_at_inj _ _ _ _ Hf F). subst u. apply in_app_iff in Hin. destruct Hin as [Hin|[E|[]]]; [|congruence].
      exfalso. apply Hnew. apply in_map_iff. exists (t, (a', k')). auto.
    + intros _ Hno. exfalso. apply (Hno t Hf ltac:(lia)). rewrite map_app, in_app_iff. cbn. auto.
    + intros Hge. exfalso. destruct Hf as (N1 & _). assert (Z.to_nat i < length tags)%nat by (apply nth_error_Some; congruence). lia.
  - rewrite nth_error_upd_ne by lia. split; [|split; auto].
    + intros u a' k' F H31 Hin. apply in_app_iff in Hin. destruct Hin as [Hin|[E|[]]]; [eauto|]. injection E as <- _ _. exfalso. apply Hne. eapply first_at_same; eauto.
    + intros Hlt Hno. apply B; auto. intros u F H31 Hin. apply (Hno u F H31). rewrite map_app, in_app_iff. auto.
Qed.

(* One turn *)
Lemma loop_turn bytes p tags vals skip m : Forall is_byte bytes -> 0 <= p <= len bytes ->
  (exists tag o n q, hop bytes p tag o n q /\ forall f, tlvs_loop (S f) (at_ bytes p) tags vals skip m =
     if tag =? 0 then Ok (if q =? len bytes then m else -1, vals)
     else match find_tag tags 0 tag with
          | Some i => if Z.testbit m i then Ok (-2, vals)
                      else match vals with
                           | Some v => do v <- wr v i (mkData (Some o) n); tlvs_loop f (at_ bytes q) tags (Some v) skip (Z.lor m (2^i))
                           | None => tlvs_loop f (at_ bytes q) tags None skip (Z.lor m (2^i))
                           end
          | None => if skip then tlvs_loop f (at_ bytes q) tags vals skip m else Ok (-3, vals)
          end) \/
  ((forall tag o n q, ~ hop bytes p tag o n q) /\ forall f, tlvs_loop (S f) (at_ bytes p) tags vals skip m = Ok (if p =? len bytes then m else -1, vals)).
Proof.
  intros Hb Hp. destruct (decode_at bytes p (Some (mkData None 0)) Hb Hp) as [(tag & o & n & q & H & E)|(H & E)].
  - left. exists tag, o, n, q. split; auto. intros f. cbn [tlvs_loop]. rewrite E. cbn [bind option_map]. destruct (tag =? 0); [reflexivity|]. destruct (find_tag tags 0 tag) as [i|] eqn:Ef; auto.
    apply find_tag_spec in Ef; [|lia]. rewrite land_pow_testbit by lia. reflexivity.
  - right. split; auto. intros f. cbn [tlvs_loop]. rewrite E. reflexivity.
Qed.

Lemma loop_outside bytes p f tags vals skip m : p < 0 -> tlvs_loop (S f) (at_ bytes p) tags vals skip m = Fail OobRead.
Proof.
  intros Hp. cbn [tlvs_loop]. unfold tlv_decode, unsigned_mbn_decode, at_. cbn [r_ptr r_end r_mem]. pose proof (len_nonneg bytes). replace (p <? len bytes) with true by lia.
  unfold rd. destruct p; try lia. reflexivity.
Qed.

(* the state of the loop after es *)
Definition good_state (tags : list Z) (old : option (list data)) (es : list (Z * (Z * Z))) (m : Z) (vals : option (list data)) : Prop := marked tags es m /\ filled tags es old vals.

Lemma requested_find tags tag : (exists i, find_tag tags 0 tag = Some i /\ 0 <= i < 31 /\ first_at tags (Z.to_nat i) tag /\ requested tags tag) \/ (find_tag tags 0 tag = None /\ ~ requested tags tag).
Proof.
  destruct (find_tag tags 0 tag) as [i|] eqn:E.
  - left. exists i. pose proof E as E'. apply find_tag_spec in E'; [|lia]. rewrite Z.sub_0_r in E'. destruct E'. split; [auto|]. split; [lia|]. split; [auto|]. apply find_tag_requested. eauto.
  - right. split; auto. intros H. apply find_tag_requested in H. destruct H. congruence.
Qed.

Lemma state_step bytes tags skip old es m vals p tag o n q : Forall is_byte bytes -> slots_enough tags old -> good_state tags old es m vals -> hop bytes p tag o n q -> tag <> 0 ->
  (requested tags tag -> ~ In tag (map fst es)) -> (~ requested tags tag -> skip = true) ->
  exists m' vals', (forall f, tlvs_loop (S f) (at_ bytes p) tags vals skip m = tlvs_loop f (at_ bytes q) tags vals' skip m') /\ good_state tags old (es ++ [(tag, (o, n))]) m' vals' /\ (~ requested tags tag -> m' = m /\ vals' = vals).
Proof.
  intros Hb Hs (M & F) H Hz R1 R2. pose proof (hop_pos _ _ _ _ _ _ H) as (Hp & _). destruct (loop_turn bytes p tags vals skip m Hb Hp) as [(tag' & o' & n' & q' & H' & E)|(N & _)]; [|destruct (N _ _ _ _ H)].
  destruct (hop_det _ _ _ _ _ _ _ _ _ _ H H') as (<- & <- & <- & <-). replace (tag =? 0) with false in E by lia. destruct (requested_find tags tag) as [(i & Ei & Hi & Fi & R)|(Ei & R)]; rewrite Ei in E.
  - destruct (Z.testbit m i) eqn:T; [exfalso|]. { apply marked_mask in M. apply (mask_bit tags _ m i tag M) in T; auto. rewrite bare_fst in T. destruct (R1 R T). }
    assert (M' : marked tags (es ++ [(tag, (o, n))]) (Z.lor m (2^i))). { apply marked_mask. rewrite bare_app. apply mask_ok_add; auto. apply marked_mask. auto. }
    destruct vals as [v|], old as [ol|]; cbn in F; try contradiction.
    + assert (Z.to_nat i < length ol)%nat as Hio. { cbn in Hs. destruct Fi as (N1 & _). assert (Z.to_nat i < length tags)%nat by (apply nth_error_Some; congruence). lia. }
      rewrite wr_in in E by (destruct F as (L & _); unfold len; lia). cbn [bind] in E. eexists. eexists. split; [exact E|]. split; [split; auto; apply filled_add; auto|contradiction].
    + eexists. eexists. split; [exact E|]. split; [split; auto; exact Logic.I|contradiction].
  - rewrite (R2 R) in *. exists m, vals. split; [exact E|]. split; auto. split; [apply marked_mask; rewrite bare_app; apply mask_ok_skip; auto; apply marked_mask; auto|apply filled_skip; auto].
Qed.

Lemma walk_state bytes tags skip old p es : Forall is_byte bytes -> slots_enough tags old -> walk bytes tags skip p es ->
  exists m vals, good_state tags old es m vals /\ p <= len bytes /\ forall f, tlvs_decode (length es + f) bytes tags old skip = tlvs_loop f (at_ bytes p) tags vals skip m.
Proof.
  intros Hb Hs W. induction W as [|p es tag o n q W (m & vals & G & Hp & E) H Hz R1 R2].
  - exists 0, (start_vals tags old). split; [split; [|apply filled_start; auto]|].
    + split; [lia|]. intros i Hi. rewrite Z.bits_0. split; [discriminate|]. intros (t & _ & _ & []).
    + split; [apply len_nonneg|]. intros f. apply tlvs_decode_start. auto.
  - destruct (state_step bytes tags skip old es m vals p tag o n q Hb Hs G H Hz R1 R2) as (m' & vals' & E' & G' & _).
    exists m', vals'. split; auto. split; [apply (hop_pos _ _ _ _ _ _ H)|]. intros f. rewrite app_length. cbn [length]. replace (length es + 1 + f)%nat with (length es + S f)%nat by lia. rewrite E. apply E'.
Qed.

(* how it can end, after es and at position p *)
Definition ends (bytes tags : list Z) (skip : bool) (p : Z) (es : list (Z * (Z * Z))) (code : Z) : Prop :=
  (marked tags es code /\ (p = len bytes \/ exists o n, hop bytes p 0 o n (len bytes))) \/
  (code = -1 /\ 0 <= p < len bytes /\ forall tag o n q, hop bytes p tag o n q -> tag = 0 /\ q <> len bytes) \/
  (code = -2 /\ exists tag o n q, hop bytes p tag o n q /\ requested tags tag /\ In tag (map fst es)) \/
  (code = -3 /\ skip = false /\ exists tag o n q, hop bytes p tag o n q /\ tag <> 0 /\ ~ requested tags tag).

Lemma hop_end bytes tag o n q : ~ hop bytes (len bytes) tag o n q.
Proof.
  intros (pre & t & l & rest & E & Ep & (Ht & _) & _). apply mbn_shape_nonempty in Ht. apply (f_equal len) in E. rewrite !len_app in E. pose proof (len_nonneg l). pose proof (len_nonneg rest). lia.
Qed.

Lemma loop_exact bytes tags skip old : Forall is_byte bytes -> slots_enough tags old -> ~ In 0 tags -> forall f p es m vals, walk bytes tags skip p es -> good_state tags old es m vals -> p <= len bytes ->
  match tlvs_loop f (at_ bytes p) tags vals skip m with
  | Ok (code, new) => exists p' es', walk bytes tags skip p' es' /\ ends bytes tags skip p' es' code /\ filled tags es' old new
  | Fail NoFuel => exists p' es', walk bytes tags skip p' es' /\ length es' = (length es + f)%nat
  | Fail e => e = OobRead /\ exists p' es', walk bytes tags skip p' es' /\ p' < 0
  end.
Proof.
  intros Hb Hs H0. induction f as [|f IH]; intros p es m vals W G Hp.
  - cbn [tlvs_loop]. exists p, es. split; auto.
  - destruct (Z_lt_dec p 0) as [N|N]. { rewrite loop_outside by auto. split; auto. exists p, es. auto. }
    destruct (loop_turn bytes p tags vals skip m Hb ltac:(lia)) as [(tag & o & n & q & H & E)|(X & E)]; specialize (E f).
    + destruct (Z.eq_dec tag 0) as [->|Hz].
      * rewrite E. cbn [Z.eqb]. exists p, es. split; auto. split; [|apply G]. destruct (q =? len bytes) eqn:Eq; [left|right; left].
        -- split; [apply G|]. right. replace q with (len bytes) in H by lia. eauto.
        -- split; auto. split. { destruct (Z.eq_dec p (len bytes)) as [->|]; [destruct (hop_end _ _ _ _ _ H)|lia]. } intros tag' o' n' q' H'. destruct (hop_det _ _ _ _ _ _ _ _ _ _ H H') as (<- & _ & _ & <-). split; auto; lia.
      * destruct (requested_find tags tag) as [(i & Ei & Hi & Fi & R)|(Ei & R)].
        -- destruct (in_dec Z.eq_dec tag (map fst es)) as [Hin|Hin].
           ++ replace (tag =? 0) with false in E by lia. rewrite Ei in E. destruct G as (M & F). apply marked_mask in M. assert (T : Z.testbit m i = true) by (apply (mask_bit tags _ m i tag M); auto; rewrite bare_fst; auto).
              rewrite T in E. rewrite E. exists p, es. split; auto. split; [|auto]. right. right. left. split; auto. exists tag, o, n, q. auto.
           ++ destruct (state_step bytes tags skip old es m vals p tag o n q Hb Hs G H Hz (fun _ => Hin) ltac:(contradiction)) as (m' & vals' & E' & G' & _). rewrite E'.
              specialize (IH q (es ++ [(tag, (o, n))]) m' vals'). destruct (tlvs_loop f (at_ bytes q) tags vals' skip m') as [(code & new)|e] eqn:El.
              ** apply IH; auto; [eapply walk_hop; eauto; contradiction|apply (hop_pos _ _ _ _ _ _ H)].
              ** rewrite app_length in IH. cbn [length] in IH. replace (length es + S f)%nat with (length es + 1 + f)%nat by lia. apply IH; auto; [eapply walk_hop; eauto; contradiction|apply (hop_pos _ _ _ _ _ _ H)].
        -- destruct skip.
           ++ destruct (state_step bytes tags true old es m vals p tag o n q Hb Hs G H Hz ltac:(contradiction) (fun _ => eq_refl)) as (m' & vals' & E' & G' & _). rewrite E'.
              specialize (IH q (es ++ [(tag, (o, n))]) m' vals'). destruct (tlvs_loop f (at_ bytes q) tags vals' true m') as [(code & new)|e] eqn:El.
              ** apply IH; auto; [eapply walk_hop; eauto; contradiction|apply (hop_pos _ _ _ _ _ _ H)].
              ** rewrite app_length in IH. cbn [length] in IH. replace (length es + S f)%nat with (length es + 1 + f)%nat by lia. apply IH; auto; [eapply walk_hop; eauto; contradiction|apply (hop_pos _ _ _ _ _ _ H)].
           ++ replace (tag =? 0) with false in E by lia. rewrite Ei in E. rewrite E. exists p, es. split; auto. split; [|apply G]. right. right. right. split; auto. split; auto. exists tag, o, n, q. auto.
    + rewrite E. exists p, es. split; auto. split; [|apply G]. destruct (p =? len bytes) eqn:Ep; [left; split; [apply G|left; lia]|right; left]. split; auto. split; [lia|]. intros tag o n q H. destruct (X _ _ _ _ H).
Qed.

(* What gutil_tlvs_decode returns for any input, and what is in the array; and that it reads in front of the input exactly if it gets there *)
Theorem C11_exact bytes tags skip old fuel : Forall is_byte bytes -> slots_enough tags old -> ~ In 0 tags ->
  match tlvs_decode fuel bytes tags old skip with
  | Ok (code, new) => exists p es, walk bytes tags skip p es /\ ends bytes tags skip p es code /\ filled tags es old new
  | Fail NoFuel => exists p es, walk bytes tags skip p es /\ length es = fuel
  | Fail e => e = OobRead /\ exists p es, walk bytes tags skip p es /\ p < 0
  end.
Proof.
  intros Hb Hs H0. destruct (walk_state bytes tags skip old 0 [] Hb Hs (walk_nil _ _ _)) as (m & vals & G & Hp & E). pose proof (E fuel) as Ef. cbn [length Nat.add] in Ef. rewrite Ef. exact (loop_exact bytes tags skip old Hb Hs H0 fuel 0 [] m vals (walk_nil _ _ _) G Hp).
Qed.
Print Assumptions C11_exact.

(* ---------------- C12 ---------------- *)

Lemma walk_prefix bytes tags skip : forall q es es', walk bytes tags skip q (es ++ es') -> exists p, walk bytes tags skip p es.
Proof.
  intros q es es'. revert q. induction es' as [|e es' IH] using rev_ind; intros q W; [rewrite app_nil_r in W; eauto|].
  rewrite app_assoc in W. remember ((es ++ es') ++ [e]) as l eqn:El. destruct W as [|p es0 tag o n q W H Hz R1 R2]; [destruct (es ++ es'); discriminate|].
  apply app_inj_tail in El. destruct El as (-> & _). eauto.
Qed.

Lemma walk_det bytes tags skip p es : walk bytes tags skip p es -> forall q, walk bytes tags skip q es -> p = q.
Proof.
  induction 1 as [|p es tag o n p' W IH H Hz R1 R2]; intros q W'.
  - remember [] as l eqn:El. destruct W' as [|? es' ? ? ? ? ? ? ? ? ?]; auto. destruct es'; discriminate.
  - remember (es ++ [(tag, (o, n))]) as l eqn:El. destruct W' as [|p2 es2 tag2 o2 n2 q W2 H2 Hz2 _ _]; [destruct es; discriminate|]. apply app_inj_tail in El. destruct El as (-> & E). injection E as -> -> ->.
    rewrite (IH _ W2) in H. apply (hop_det _ _ _ _ _ _ _ _ _ _ H H2).
Qed.

(* going around *)
Lemma around bytes tags skip old p es : Forall is_byte bytes -> slots_enough tags old -> walk bytes tags skip p es -> forall es2 q m vals, walk bytes tags skip q (es ++ es2) -> Forall (fun e => ~ requested tags (fst e)) es2 ->
  good_state tags old es m vals -> good_state tags old (es ++ es2) m vals /\ forall f, tlvs_loop (length es2 + f) (at_ bytes p) tags vals skip m = tlvs_loop f (at_ bytes q) tags vals skip m.
Proof.
  intros Hb Hs W es2. induction es2 as [|e es2 IH] using rev_ind; intros q m vals W2 F G.
  - rewrite app_nil_r in *. rewrite (walk_det _ _ _ _ _ W q W2). split; auto.
  - rewrite app_assoc in W2. remember ((es ++ es2) ++ [e]) as l eqn:El. destruct W2 as [|p2 es0 tag o n q W2 H Hz R1 R2]; [destruct (es ++ es2); discriminate|].
    apply app_inj_tail in El. destruct El as (-> & <-). apply Forall_app in F. destruct F as (F & Fe). apply Forall_inv in Fe. cbn [fst] in Fe. destruct (IH p2 m vals W2 F G) as (G2 & E2).
    destruct (state_step bytes tags skip old (es ++ es2) m vals p2 tag o n q Hb Hs G2 H Hz R1 R2) as (m' & vals' & E' & G' & U). destruct (U Fe) as (-> & ->).
    rewrite app_assoc. split; auto. intros f. rewrite app_length. cbn [length]. replace (length es2 + 1 + f)%nat with (length es2 + S f)%nat by lia. rewrite E2. apply E'.
Qed.

Lemma loop_more tags skip : forall f r vals m k x, tlvs_loop f r tags vals skip m = x -> x <> Fail NoFuel -> tlvs_loop (f + k) r tags vals skip m = x.
Proof.
  induction f as [|f IH]; intros r vals m k x E N; [cbn in E; congruence|]. cbn [Nat.add tlvs_loop] in *. destruct (tlv_decode r (Some (mkData None 0))) as [((tag, r'), val)|e]; cbn [bind] in *; [|auto].
  destruct (tag =? 0); [auto|]. destruct val as [val|]; [|auto]. destruct (find_tag tags 0 tag) as [i|].
  - destruct (negb (Z.land m (2 ^ i) =? 0)); [auto|]. destruct vals as [v|]; [destruct (wr v i val); cbn [bind] in *; [apply IH; auto|auto]|apply IH; auto].
  - destruct skip; [apply IH; auto|auto].
Qed.

Lemma nodup_snoc {A} (l : list A) x : NoDup l -> ~ In x l -> NoDup (l ++ [x]).
Proof. intros H N. apply NoDup_Add with (a := x) (l := l); [|auto]. pose proof (Add_app x l []) as X. rewrite app_nil_r in X. exact X. Qed.

Definition asked (tags : list Z) (es : list (Z * (Z * Z))) : list Z := filter (fun t => if in_dec Z.eq_dec t (firstn 31 tags) then true else false) (map fst es).
Lemma asked_few bytes tags skip p es : walk bytes tags skip p es -> NoDup (asked tags es) /\ incl (asked tags es) (firstn 31 tags).
Proof.
  intros W. split; [|intros t H; apply filter_In in H; destruct H as (_ & H); destruct (in_dec Z.eq_dec t (firstn 31 tags)); auto; discriminate].
  induction W as [|p es tag o n q W IH H Hz R1 R2]; [constructor|]. unfold asked in *. rewrite map_app, filter_app. cbn [map filter fst]. destruct (in_dec Z.eq_dec tag (firstn 31 tags)) as [I|I]; [|rewrite app_nil_r; auto].
  apply nodup_snoc; auto. intros X. apply filter_In in X. apply (R1 I). apply X.
Qed.

(* where it was, and how many of the tags asked for had been met *)
Lemma visited bytes tags skip q es : walk bytes tags skip q es -> exists L : list (nat * nat), length L = length es /\
  forall i x, nth_error L i = Some x -> exists p, walk bytes tags skip p (firstn i es) /\ x = (Z.to_nat p, length (asked tags (firstn i es))) /\ 0 <= p <= len bytes.
Proof.
  induction 1 as [|p es tag o n q W (L & EL & HL) H Hz R1 R2].
  - exists []. split; auto. intros [|i] x; discriminate.
  - exists (L ++ [(Z.to_nat p, length (asked tags es))]). split; [rewrite !app_length; cbn; lia|]. intros i x E. destruct (Nat.lt_ge_cases i (length L)) as [Hi|Hi].
    + rewrite nth_error_app1 in E by auto. rewrite firstn_app. replace (i - length es)%nat with O by lia. cbn [firstn]. rewrite app_nil_r. auto.
    + assert (i = length L) as ->. { assert (i < length (L ++ [(Z.to_nat p, length (asked tags es))]))%nat by (apply nth_error_Some; congruence). rewrite app_length in *. cbn in *. lia. }
      rewrite nth_error_app2, Nat.sub_diag in E by auto. injection E as <-. exists p. rewrite EL, firstn_app, Nat.sub_diag, firstn_all. cbn [firstn]. rewrite app_nil_r. split; auto. split; auto. apply (hop_pos _ _ _ _ _ _ H).
Qed.

Lemma not_nodup (l : list (nat * nat)) : ~ NoDup l -> exists a l1 l2 l3, l = l1 ++ a :: l2 ++ a :: l3.
Proof.
  assert (D : forall x y : nat * nat, {x = y} + {x <> y}) by (decide equality; apply Nat.eq_dec).
  induction l as [|x l IH]; intros N; [destruct N; constructor|]. destruct (in_dec D x l) as [I|I].
  - apply in_split in I. destruct I as (l2 & l3 & ->). exists x, [], l2, l3. reflexivity.
  - destruct IH as (a & l1 & l2 & l3 & ->). { intros Nd. apply N. constructor; auto. } exists a, (x :: l1), l2, l3. reflexivity.
Qed.

(* It does not return exactly if it comes to a position where it has been, meeting only tags not asked for in between *)
Theorem C12_exact bytes tags skip old : Forall is_byte bytes -> slots_enough tags old -> ~ In 0 tags ->
  ((forall fuel, tlvs_decode fuel bytes tags old skip = Fail NoFuel) <->
   exists p es es2, walk bytes tags skip p es /\ walk bytes tags skip p (es ++ es2) /\ es2 <> [] /\ Forall (fun e => ~ requested tags (fst e)) es2).
Proof.
  intros Hb Hs H0. split.
  - intros N. set (K := ((length bytes + 1) * 32 + 1)%nat). pose proof (C11_exact bytes tags skip old K Hb Hs H0) as E. rewrite N in E. destruct E as (q & es & W & EK). destruct (visited bytes tags skip q es W) as (L & EL & HL).
    assert (incl L (list_prod (seq 0 (length bytes + 1)) (seq 0 32))) as I.
    { intros x Hx. apply In_nth_error in Hx. destruct Hx as (i & Hi). destruct (HL i x Hi) as (p & Wp & -> & Hp). apply in_prod; apply in_seq; [unfold len in Hp; lia|].
      destruct (asked_few _ _ _ _ _ Wp) as (Nd & In31). pose proof (NoDup_incl_length Nd In31). pose proof (firstn_le_length 31 tags). lia. }
    destruct (not_nodup L) as (a & l1 & l2 & l3 & EqL).
    { intros Nd. pose proof (NoDup_incl_length Nd I) as X. rewrite prod_length, !seq_length in X. unfold K in EK. lia. }
    destruct (HL (length l1) a) as (p & Wp & Ea & Hp). { rewrite EqL, nth_error_app2, Nat.sub_diag by auto. reflexivity. }
    destruct (HL (length l1 + S (length l2))%nat a) as (p' & Wp' & Ea' & Hp'). { rewrite EqL, nth_error_app2 by lia. replace (length l1 + S (length l2) - length l1)%nat with (S (length l2)) by lia. cbn [nth_error app]. rewrite nth_error_app2, Nat.sub_diag by auto. reflexivity. }
    rewrite Ea in Ea'. injection Ea' as Ep Ec. assert (p = p') as <- by lia. set (i := length l1) in *. set (j := S (length l2)) in *.
    assert (Hl : (i + j < length es)%nat). { rewrite <- EL, EqL. rewrite app_length. cbn [length]. rewrite app_length. cbn [length]. unfold i, j. lia. }
    assert (firstn (i + j) es = firstn i es ++ firstn j (skipn i es)) as Ej.
    { rewrite <- (firstn_skipn i es) at 1. rewrite firstn_app, firstn_firstn, firstn_length. replace (Nat.min (i + j) i) with i by lia. replace (i + j - Nat.min i (length es))%nat with j by lia. reflexivity. }
    exists p, (firstn i es), (firstn j (skipn i es)). rewrite <- Ej. split; [auto|]. split; [auto|]. split.
    + intros X. apply (f_equal (@length _)) in X. rewrite firstn_length, skipn_length in X. cbn [length] in X. assert (1 <= j)%nat by (unfold j; lia). lia.
    + rewrite Ej in Ec. unfold asked in Ec. rewrite map_app, filter_app, app_length in Ec. apply Forall_forall. intros e He R. assert (In (fst e) (asked tags (firstn j (skipn i es)))) as X.
      { apply filter_In. split; [apply in_map; auto|]. destruct (in_dec Z.eq_dec (fst e) (firstn 31 tags)); auto. }
      unfold asked in X. destruct (filter _ (map fst (firstn j (skipn i es)))); [destruct X|]. cbn [length] in Ec. lia.
  - intros (p & es & es2 & W & W2 & Ne & F) fuel. destruct (walk_state bytes tags skip old p es Hb Hs W) as (m & vals & G & Hp & E).
    destruct (around bytes tags skip old p es Hb Hs W es2 p m vals W2 F G) as (_ & A).
    assert (T : forall k, tlvs_loop (k * length es2) (at_ bytes p) tags vals skip m = Fail NoFuel).
    { induction k as [|k IH]; [reflexivity|]. cbn [Nat.mul]. rewrite A. exact IH. }
    assert (NF : tlvs_decode (length es + fuel * length es2) bytes tags old skip = Fail NoFuel) by (rewrite E; apply T).
    rewrite tlvs_decode_start in * by auto. destruct (tlvs_loop fuel (whole bytes) tags (start_vals tags old) skip 0) as [x|e] eqn:El.
    + exfalso. assert (1 <= length es2)%nat by (destruct es2; [congruence|cbn; lia]). replace (length es + fuel * length es2)%nat with (fuel + (length es + fuel * length es2 - fuel))%nat in NF by nia.
      rewrite (loop_more tags skip fuel _ _ _ _ _ El ltac:(discriminate)) in NF. discriminate.
    + destruct e; auto; exfalso; (assert (1 <= length es2)%nat by (destruct es2; [congruence|cbn; lia]); replace (length es + fuel * length es2)%nat with (fuel + (length es + fuel * length es2 - fuel))%nat in NF by nia;
      rewrite (loop_more tags skip fuel _ _ _ _ _ El ltac:(discriminate)) in NF; discriminate).
Qed.
Print Assumptions C12_exact.

(* It reads in front of the input exactly if it gets there *)
Theorem C10_reads_exact bytes tags skip old : Forall is_byte bytes -> slots_enough tags old -> ~ In 0 tags ->
  ((exists fuel, tlvs_decode fuel bytes tags old skip = Fail OobRead) <-> exists p es, walk bytes tags skip p es /\ p < 0).
Proof.
  intros Hb Hs H0. split.
  - intros (fuel & E). pose proof (C11_exact bytes tags skip old fuel Hb Hs H0) as X. rewrite E in X. apply X.
  - intros (p & es & W & Hp). destruct (walk_state bytes tags skip old p es Hb Hs W) as (m & vals & _ & _ & E). exists (length es + 1)%nat. rewrite E. apply loop_outside. auto.
Qed.
Print Assumptions C10_reads_exact.

Lemma huge_hop : hop huge_tlv 0 1 11 (2^64 - 11) 0.
Proof.
  exists [], [1], (tl huge_tlv), []. split; [reflexivity|]. split; [reflexivity|]. split; [split; [exists [], 1; repeat split; auto; lia|]; repeat split; vm_compute; congruence|]. split; [lia|].
  split; [split; [exists (removelast (tl huge_tlv)), (last huge_tlv 0); split; [reflexivity|]; split; [cbn; repeat constructor; lia|cbn; lia]|]; repeat split; vm_compute; congruence|]. split; [reflexivity|]. right. lia.
Qed.
(* around and around *)
Example C12_example_exact : exists p es es2, walk huge_tlv [2] true p es /\ walk huge_tlv [2] true p (es ++ es2) /\ es2 <> [] /\ Forall (fun e => ~ requested [2] (fst e)) es2.
Proof.
  exists 0, [], [(1, (11, 2^64 - 11))]. split; [constructor|]. split; [|split; [discriminate|repeat constructor; intros [X|[]]; discriminate]].
  apply (walk_hop huge_tlv [2] true 0 [] 1 11 (2^64 - 11) 0); [constructor|exact huge_hop|discriminate|intros _ []|auto].
Qed.
(* tag 2 of the two, found in spite of tag 1 in front of it, and the value of tag 2 which has two bytes *)
Example C11_example_exact : exists p es new, walk [1; 1; 7; 2; 2; 8; 9] [2] true p es /\ ends [1; 1; 7; 2; 2; 8; 9] [2] true p es 1 /\ filled [2] es (Some [mkData None 5]) new /\
  tlvs_decode 9 [1; 1; 7; 2; 2; 8; 9] [2] (Some [mkData None 5]) true = Ok (1, new) /\ new = Some [mkData (Some 5) 2].
Proof.
  pose proof (C11_exact [1; 1; 7; 2; 2; 8; 9] [2] true (Some [mkData None 5]) 9) as X. assert (E : tlvs_decode 9 [1; 1; 7; 2; 2; 8; 9] [2] (Some [mkData None 5]) true = Ok (1, Some [mkData (Some 5) 2])) by (vm_compute; reflexivity).
  rewrite E in X. destruct X as (p & es & W & En & F); [repeat constructor; lia|cbn; lia|intros [Y|[]]; discriminate|]. exists p, es, (Some [mkData (Some 5) 2]). auto.
Qed.
Example C10_example_exact : hop huge_tlv 0 1 11 (2^64 - 11) 0 /\ ~ (11 + (2^64 - 11) <= len huge_tlv) /\ (exists r, tlv_decode (mkRange huge_tlv 0 (len huge_tlv)) None = Ok (1, r, None) /\ r_ptr r = 0).
Proof. split; [exact huge_hop|]. split; [vm_compute; congruence|]. eexists. split; [vm_compute; reflexivity|reflexivity]. Qed.
Example C14_example_exact : tlv_size 200 (2^32 - 2) = Ok 5 /\ (2 + 5 + (2^32 - 2)) mod 2^32 = 5.
Proof. split; vm_compute; reflexivity. Qed.
