(* Properties of int blocks (gutil_ints.c) *)
From Verif Require Import Base HexModel DataModel IntsModel IntsSpec IntsProofs.
From Coq Require Import ZifyBool.

(* ================= C40: slices ================= *)
(* Missing: offset + count of 2^32 and more (C40_overflow says what happens), and that an empty slice takes no reference *)
Theorem C40_slices_partial h w i off n v : history h w -> correct w (CSlice i off n) -> get_data h i = Ok v ->
  (off < len v -> 0 < n -> exists h' j b, step h (CSlice i off n) = Ok (h', RNew (Some j) b) /\
     get_data h' j = Ok (slice v off (Z.min (off + n) (len v))) /\ get_data h' i = Ok v) /\
  (off < len v -> n = 0 -> exists h' b, step h (CSlice i off n) = Ok (h', RNew None b) /\ step h (CRef i) = Ok (h', RNone)) /\
  (len v <= off -> exists b, step h (CSlice i off n) = Ok (h, RNew None b)).
Proof.
  intros H V G. destruct (history_inv _ _ H) as (I & Cl). destruct w as (nodes, own). cbn [fst snd] in I.
  destruct (step_ok h nodes own _ I Cl V) as (h' & r & E & I' & Cl' & P).
  assert (In i own) as Hi by apply V. destruct (get_data_vals _ _ _ _ _ I Hi G) as (m & Nm & Em).
  destruct r as [|[j|] b|]; try contradiction; destruct P as (m' & Nm' & P); assert (m' = m) as -> by congruence; rewrite Em in P.
  - split; [|split; [lia|lia]]. intros Ho _. exists h', j, b. split; auto. cbn [after] in I'. rewrite Nm, Em in I'. cbn [fst snd] in I'.
    destruct (inv_sound _ _ _ I' Cl') as (S1 & _). destruct (S1 j) as (nj & Nj & Gj); [left; auto|]. destruct (S1 i) as (ni & Ni & Gi); [right; auto|].
    assert (j = length nodes) as ->.
    { cbn [step] in E. unfold new_from_ints in E. destruct (get h i) as [o|]; cbn [bind] in E; [|discriminate]. destruct (off <? o_cnt o); [|cbn [bind] in E; discriminate].
      unfold ints_ref in E. destruct (get h i); cbn [bind] in E; [|discriminate]. unfold new_with_free_func in E. destruct (_ =? 0); cbn [bind] in E; [discriminate|].
      injection E as _ <- _. cbn. rewrite upd_length. apply (inv_len _ _ _ I). }
    rewrite nth_error_app2, Nat.sub_diag in Nj by apply Nat.le_refl. injection Nj as <-. split; [exact Gj|].
    rewrite nth_error_app1 in Ni by (eapply nth_lt; eauto). rewrite Nm in Ni. injection Ni as <-. congruence.
  - destruct (owned_live _ _ _ _ I Hi) as (o & m' & (L1 & _) & Nm2 & M). assert (m' = m) as -> by congruence.
    destruct M as (_ & _ & _ & _ & Mc & Ml & _). rewrite Em in Ml. split; [lia|]. split.
    { intros Ho ->. exists h', b. split; auto. cbn [step] in *. unfold new_from_ints in E. unfold get at 1 in E. rewrite L1 in E. cbn [bind] in E.
      replace (off <? o_cnt o) with true in E by lia. destruct (ints_ref h i) as [h1|]; cbn [bind] in *; [|discriminate].
      rewrite Z.add_0_r in E. rewrite (u32_id off) in E by (unfold in_u32; destruct V as (_ & ? & _); lia).
      replace (off >? o_cnt o) with false in E by lia. rewrite Z.sub_diag in E. cbn in E. congruence. }
    intros Ho. exists b.
    cbn [step] in *. unfold new_from_ints, get in *. rewrite L1 in *. cbn [bind] in *. replace (off <? o_cnt o) with false in * by lia. cbn [bind] in *. congruence.
Qed.
Print Assumptions C40_slices_partial.

(* a block of three ints and its last two *)
Definition ex_h1 : heap := mkHeap [Some (mkObj 0 0 3 1 KFree)] [([10; 20; 30], 0)].
Definition ex_w1 : world := ([mkNode None 0 true [10; 20; 30]], [0%nat]).
Lemma ex_history1 : history ex_h1 ex_w1.
Proof.
  apply (history_cons (mkHeap [] []) ([], []) (CNew Take [10; 20; 30]) ex_h1 (RNew (Some 0%nat) 0)); [apply history_nil| |reflexivity]. reflexivity.
Qed.
Example C40_example : correct ex_w1 (CSlice 0 1 7) /\ get_data ex_h1 0 = Ok [10; 20; 30] /\
  exists h', step ex_h1 (CSlice 0 1 7) = Ok (h', RNew (Some 1%nat) 0) /\ get_data h' 1 = Ok [20; 30].
Proof. split; [cbn; lia|]. split; [reflexivity|]. eexists. split; reflexivity. Qed.

(* offset + count overflows: the slice of the last int has 2^32 - 1 ints and reading it leaves the block *)
Theorem C40_slices_overflow_refuted : exists h w i off n v, history h w /\ In i (snd w) /\ get_data h i = Ok v /\
  0 <= off < len v /\ 0 < n < 2^32 /\
  exists h' j b, step h (CSlice i off n) = Ok (h', RNew (Some j) b) /\ get_data h' j = Fail OobRead.
Proof.
  exists ex_h1, ex_w1, 0%nat, 2, (2^32 - 1), [10; 20; 30]. split; [apply ex_history1|]. split; [left; reflexivity|]. split; [reflexivity|].
  split; [cbn; lia|]. split; [lia|]. eexists _, 1%nat, 0%nat. split; reflexivity.
Qed.
Print Assumptions C40_slices_overflow_refuted.

(* which is what happens to all slices whose end overflows: they have as many ints as asked for, and are not inside *)
Theorem C40_overflow h w i off n v : history h w -> In i (snd w) -> len (snd w) + len (fst w) < 2^31 - 1 -> get_data h i = Ok v ->
  0 <= off < len v -> 0 <= n < 2^32 -> 2^32 <= off + n ->
  exists h' j b, step h (CSlice i off n) = Ok (h', RNew (Some j) b) /\ get_data h' j = Fail OobRead.
Proof.
  intros H Hi Hb G Ho Hn Ov. destruct (history_inv _ _ H) as (I & _). destruct w as (nodes, own). cbn [fst snd] in *.
  destruct (slice_overflow h nodes own i off n v I Hi) as (h' & b & E); auto; [|eauto].
  intros b c r E. apply (history_blocks _ _ H). apply nth_error_In in E. apply (in_map fst) in E. exact E.
Qed.
Print Assumptions C40_overflow.

(* an empty slice is NULL but takes a reference to the block *)
Theorem C40_empty_slice_refuted : exists h w i off v, history h w /\ In i (snd w) /\ get_data h i = Ok v /\
  0 <= off < len v /\
  exists h' b, step h (CSlice i off 0) = Ok (h', RNew None b) /\ h' <> h.
Proof.
  exists ex_h1, ex_w1, 0%nat, 2, [10; 20; 30]. split; [apply ex_history1|]. split; [left; reflexivity|]. split; [reflexivity|].
  split; [cbn; lia|]. eexists _, _. split; [reflexivity|]. discriminate.
Qed.
Print Assumptions C40_empty_slice_refuted.

(* ================= C41: a total order ================= *)
Theorem C41_total_order big p q : valid_ptr p -> valid_ptr q -> coherent p q ->
  exists c d e, ints_compare big p q = Ok c /\ ints_compare big q p = Ok d /\ ints_equal big p q = Ok e /\
    Z.sgn c = - Z.sgn d /\ (c = 0 <-> contents p = contents q) /\ (e = true <-> c = 0).
Proof.
  intros Vp Vq Co. assert (coherent q p) as Co'. { destruct p as [[? ?]|], q as [[? ?]|]; cbn in *; auto. intros. symmetry. auto. }
  destruct (compare_lexc big p q Vp Vq Co) as (c & Ec & Sc). destruct (compare_lexc big q p Vq Vp Co') as (d & Ed & Sd).
  destruct (equal_contents big p q Vp Vq Co) as (e & Ee & Se). exists c, d, e. split; auto. split; auto. split; auto.
  rewrite lexc_opp in Sd.
  assert (c = 0 <-> contents p = contents q) as X.
  { split.
    - intros ->. destruct (lexc (ints_bytes big (contents p)) (ints_bytes big (contents q))) eqn:L; try discriminate. apply lexc_eq in L.
      apply (ints_bytes_inj big); auto; [destruct p as [[? ?]|]|destruct q as [[? ?]|]]; cbn in *; try tauto; constructor.
    - intros E. rewrite E, lexc_refl in Sc. cbn in Sc. lia. }
  split; [|tauto]. rewrite Sc, Sd. destruct (lexc _ _); reflexivity.
Qed.
Print Assumptions C41_total_order.

Theorem C41_transitive big p q r x y : valid_ptr p -> valid_ptr q -> valid_ptr r -> coherent p q -> coherent q r -> coherent p r ->
  ints_compare big p q = Ok x -> ints_compare big q r = Ok y -> x <= 0 -> y <= 0 ->
  exists z, ints_compare big p r = Ok z /\ z <= 0 /\ (x < 0 \/ y < 0 -> z < 0).
Proof.
  intros Vp Vq Vr C1 C2 C3 E1 E2 Hx Hy.
  destruct (compare_lexc big p q Vp Vq C1) as (c & Ec & Sc). destruct (compare_lexc big q r Vq Vr C2) as (d & Ed & Sd).
  destruct (compare_lexc big p r Vp Vr C3) as (z & Ez & Sz). assert (c = x) as -> by congruence. assert (d = y) as -> by congruence.
  exists z. split; auto. set (a := ints_bytes big (contents p)) in *. set (b := ints_bytes big (contents q)) in *. set (e := ints_bytes big (contents r)) in *.
  destruct (lexc a b) eqn:L1; [| |cbn in Sc; lia].
  - apply lexc_eq in L1. rewrite L1 in Sz. rewrite <- Sz in Sd. cbn in Sc. lia.
  - destruct (lexc b e) eqn:L2; [| |cbn in Sd; lia].
    + apply lexc_eq in L2. rewrite <- L2, L1 in Sz. cbn in Sz. lia.
    + rewrite (lexc_trans a b e L1 L2) in Sz. cbn in Sz. lia.
Qed.
Print Assumptions C41_transitive.

Example C41_example : let p : iptr := Some (100, [1; -2]) in let q : iptr := Some (200, [1; -2; 0]) in
  valid_ptr p /\ valid_ptr q /\ coherent p q /\ ints_compare false p q = Ok (-1) /\ ints_compare false q p = Ok 1 /\
  ints_compare true None p = Ok (-1) /\ ints_compare false (Some (300, [1; -3])) p = Ok (-1).
Proof. cbn [valid_ptr coherent]. repeat split; try discriminate; repeat constructor; unfold in_s32; lia. Qed.

(* ================= C42: numeric order ================= *)
(* wrong on every machine *)
Theorem C42_numeric_order_refuted : forall big, exists p q c, valid_ptr p /\ valid_ptr q /\ coherent p q /\
  lexc (contents p) (contents q) = Lt /\ ints_compare big p q = Ok c /\ 0 < c.
Proof.
  intros [|].
  - exists (Some (100, [-1])), (Some (200, [0])), 255. cbn [valid_ptr coherent]. repeat split; try discriminate; repeat constructor; unfold in_s32; lia.
  - exists (Some (100, [1])), (Some (200, [256])), 1. cbn [valid_ptr coherent]. repeat split; try discriminate; repeat constructor; unfold in_s32; lia.
Qed.
Print Assumptions C42_numeric_order_refuted.

(* Right for values which are not negative on big endian machines and for values up to 255 on others *)
Theorem C42_numeric_order_partial (big : bool) p q : valid_ptr p -> valid_ptr q -> coherent p q ->
  (forall v, In v (contents p) \/ In v (contents q) -> 0 <= v < if big then 2^31 else 256) ->
  exists c, ints_compare big p q = Ok c /\ Z.sgn c = sign_of (lexc (contents p) (contents q)).
Proof.
  intros Vp Vq Co O. destruct (compare_lexc big p q Vp Vq Co) as (c & Ec & Sc). exists c. split; auto. rewrite Sc, ints_bytes_order; auto;
    apply Forall_forall; intros v Hv; unfold orderly; destruct big; apply O; auto.
Qed.
Print Assumptions C42_numeric_order_partial.

(* What the order is, for all values: that of the unsigned numbers with the bytes as they are in memory *)
Theorem C42_order_exact (big : bool) p q : valid_ptr p -> valid_ptr q -> coherent p q ->
  exists c, ints_compare big p q = Ok c /\ Z.sgn c = sign_of (lexc (map (order_key big) (contents p)) (map (order_key big) (contents q))).
Proof. intros Vp Vq Co. destruct (compare_lexc big p q Vp Vq Co) as (c & Ec & Sc). exists c. split; auto. rewrite Sc, ints_bytes_exact. reflexivity. Qed.
Print Assumptions C42_order_exact.

Example C42_example_exact : map (order_key true) [-1; 258] = [4294967295; 258] /\ map (order_key false) [-1; 258; 513] = [4294967295; 2*2^24 + 2^16; 2^24 + 2*2^16].
Proof. split; reflexivity. Qed.

Example C42_example : ints_compare true (Some (100, [255; 4])) (Some (200, [256])) = Ok (-1) /\ ints_compare false (Some (100, [5; 255])) (Some (200, [5; 7; 9])) = Ok 248.
Proof. split; reflexivity. Qed.

(* ================= C43: hash ================= *)
Theorem C43_hash_consistent big p q : valid_ptr p -> valid_ptr q -> coherent p q ->
  ints_equal big p q = Ok true -> ints_hash p = ints_hash q.
Proof.
  intros Vp Vq Co E. destruct (equal_contents big p q Vp Vq Co) as (b & Eb & Sb). assert (b = true) as -> by congruence. apply Sb in E || (destruct Sb as (Sb & _); specialize (Sb eq_refl)).
  destruct p as [[a x]|], q as [[c y]|]; cbn in *; try congruence; destruct Vp, Vq; congruence.
Qed.
Print Assumptions C43_hash_consistent.

(* it is a guint, and the position of values matters *)
Example C43_example : ints_equal false (Some (100, [-1; 7])) (Some (200, [-1; 7])) = Ok true /\
  ints_hash (Some (100, [-1; 7])) = Z.lxor (Z.lxor 1234 (2^32 - 1)) 14 /\ ints_hash (Some (100, [7; -1])) <> ints_hash (Some (100, [-1; 7])).
Proof. repeat split; try reflexivity. discriminate. Qed.

(* ================= C44: the lifetime of blocks ================= *)
(* Missing: slices whose end overflows (C40_overflow), unref_to_data of the last reference to static data (C45_static) and more than
   2^31 - 1 references. An empty slice counts as a reference to what it is a slice of, which the caller gets without being told. *)
Theorem C44_lifetime_partial h w : history h w -> sound h w /\ forall c, correct w c -> exists h' r, step h c = Ok (h', r).
Proof.
  intros H. destruct (history_inv _ _ H) as (I & Cl). destruct w as (nodes, own). cbn [fst snd] in I. split; [apply inv_sound; auto|].
  intros c V. destruct (step_ok h nodes own c I Cl V) as (h' & r & E & _). eauto.
Qed.
Print Assumptions C44_lifetime_partial.

(* no call but unref_to_data gives a block to the caller, and it says which *)
Theorem C44_given h c h' r b v : step h c = Ok (h', r) -> nth_error (blks h') b = Some (v, 2) ->
  nth_error (blks h) b = Some (v, 2) \/ exists i off n, c = CToData i /\ r = RData b off n.
Proof.
  intros E B. assert (forall (l : list (list Z * Z)) x, nth_error (l ++ [(x, 0)]) b = Some (v, 2) -> nth_error l b = Some (v, 2)) as A0.
  { intros l x. rewrite nth_app_last. destruct (Nat.eqb b (length l)); [discriminate|auto]. }
  destruct c as [k u|i off n|i|i|i]; cbn [step add_blk] in E.
  - left. unfold new_with_free_func in E. destruct (len u =? 0); injection E as <- _; cbn [blks] in B; eauto.
  - left. unfold new_from_ints, ints_ref in E. destruct (get h i) as [o|]; cbn [bind] in E; [|discriminate].
    destruct (off <? o_cnt o); [|cbn [bind] in E; congruence]. unfold new_with_free_func in E. destruct (_ =? 0); cbn [bind] in E; injection E as <- _; auto.
  - left. unfold ints_ref in E. destruct (get h i) as [o|]; cbn [bind] in E; [|discriminate]. injection E as <- _. auto.
  - left. destruct (ints_unref _ h i) eqn:U; cbn [bind] in E; [|discriminate]. injection E as <- _. eapply unref_given; eauto.
  - unfold unref_to_data, get in E. destruct (nth_error (objs h) i) as [[o|]|] eqn:Eo; cbn [bind] in E; try discriminate.
    set (n := s32 (o_refs o - 1)) in *. set (h1 := set_obj h i (Some (set_refs o n))) in *. destruct (n =? 0).
    + destruct (o_free o) as [| | |p]; cbn [bind] in E; [discriminate| | |].
      * unfold give, finish in E. destruct (nth_error (blks h1) (o_blk o)) as [(cc, rr)|] eqn:Eb; cbn [bind] in E; [|discriminate]. destruct (rr =? 0); cbn [bind] in E; [|discriminate].
        injection E as <- <-. cbn [set_obj blks] in B. rewrite nth_upd in B. destruct (Nat.eqb_spec (o_blk o) b) as [<-|N]; [|auto]. right. exists i, (o_off o), (o_cnt o). auto.
      * left. destruct (read h1 (o_blk o) (o_off o) (o_cnt o)) as [cp|]; cbn [bind add_blk] in E; [|discriminate]. unfold release, finish in E. cbn [blks objs] in E.
        destruct (nth_error (blks h1 ++ [(cp, 0)]) (o_blk o)) as [(cc, rr)|] eqn:Eb; cbn [bind] in E; [|discriminate]. destruct (rr =? 0); cbn [bind] in E; [|discriminate].
        injection E as <- _. cbn [set_obj blks] in B. rewrite nth_upd in B. destruct (Nat.eqb (o_blk o) b); [|eapply A0; exact B]. change (blks h1) with (blks h) in Eb, B. rewrite Eb in B. discriminate.
      * left. destruct (read h1 (o_blk o) (o_off o) (o_cnt o)) as [cp|]; cbn [bind add_blk] in E; [|discriminate].
        match type of E with context [ints_unref ?f ?hh p] => destruct (ints_unref f hh p) eqn:U end; cbn [bind] in E; [|discriminate].
        injection E as <- _. cbn [set_obj blks] in B. eapply unref_given in U; [|exact B]. cbn [blks] in U. eapply A0. exact U.
    + left. destruct (read h1 (o_blk o) (o_off o) (o_cnt o)) as [cp|]; cbn [bind add_blk] in E; [|discriminate]. injection E as <- _. cbn [blks] in B. eapply A0. exact B.
Qed.
Print Assumptions C44_given.

(* a slice of a slice keeps everything alive: only the last unref releases the data *)
Example C44_example : exists h w, history h w /\ ~ In 0%nat (snd w) /\ ~ In 1%nat (snd w) /\ In 2%nat (snd w) /\ get_data h 2 = Ok [30] /\
  blks h = [([10; 20; 30], 0)] /\ exists h', step h (CUnref 2) = Ok (h', RNone) /\ h' = mkHeap [None; None; None] [([10; 20; 30], 1)].
Proof.
  assert (history ex_h1 ex_w1) as H1 by apply ex_history1.
  assert (H2 := history_cons _ _ (CSlice 0 1 5) _ _ H1 ltac:(cbn; lia) eq_refl).
  assert (H3 := history_cons _ _ (CSlice 1 1 1) _ _ H2 ltac:(cbn; lia) eq_refl).
  assert (H4 := history_cons _ _ (CUnref 0) _ _ H3 ltac:(cbn; auto) eq_refl).
  assert (H5 := history_cons _ _ (CUnref 1) _ _ H4 ltac:(cbn; auto) eq_refl).
  eexists _, _. split; [exact H5|]. cbn. repeat split; try lia. eexists. split; reflexivity.
Qed.

(* an empty slice: the data is never released *)
Example C44_example_empty : exists h w, history h w /\ snd w = [0; 0]%nat /\ exists h1 h2, step h (CUnref 0) = Ok (h1, RNone) /\ step h1 (CUnref 0) = Ok (h2, RNone) /\
  blks h1 = [([10; 20; 30], 0)] /\ blks h2 = [([10; 20; 30], 1)].
Proof.
  assert (H2 := history_cons _ _ (CSlice 0 1 0) _ _ ex_history1 ltac:(cbn; lia) eq_refl).
  eexists _, _. split; [exact H2|]. split; [reflexivity|]. eexists _, _. split; [reflexivity|]. split; [reflexivity|]. split; reflexivity.
Qed.

(* gutil_ints_new_take of no data: NULL, and what was to be taken is neither kept nor freed *)
Theorem C44_take_empty_refuted : exists h h' b, history h ([], []) /\ step h (CNew Take []) = Ok (h', RNew None b) /\ history h' ([], []) /\ nth_error (blks h') b = Some ([], 0).
Proof.
  eexists _, _, _. split; [apply history_nil|]. split; [reflexivity|]. split; [|reflexivity].
  exact (history_cons _ ([], []) (CNew Take []) _ (RNew None 0) history_nil eq_refl eq_refl).
Qed.
Print Assumptions C44_take_empty_refuted.

Theorem C44_leak_refuted : exists h1 h2 b, history ex_h1 ex_w1 /\ step ex_h1 (CSlice 0 1 0) = Ok (h1, RNew None b) /\
  step h1 (CUnref 0) = Ok (h2, RNone) /\ blks h2 = [([10; 20; 30], 0)] /\ get h2 0 = Ok (mkObj 0 0 3 1 KFree).
Proof. eexists _, _, _. split; [apply ex_history1|]. split; [reflexivity|]. split; [reflexivity|]. split; reflexivity. Qed.
Print Assumptions C44_leak_refuted.

(* ================= C45: unref_to_data ================= *)
(* Missing: the last reference to static data (C45_static says what happens) *)
Theorem C45_unref_to_data_partial h w i v : history h w -> correct w (CToData i) -> get_data h i = Ok v ->
  exists h' b c r, step h (CToData i) = Ok (h', RData b 0 (len v)) /\
    nth_error (blks h') b = Some (c, r) /\ len v <= len c /\ slice c 0 (len v) = v /\
    (* new memory, or the memory of this block which was in use until now *)
    (b = length (blks h) /\ r = 0 \/ nth_error (blks h) b = Some (c, 0) /\ r = 2) /\
    (* which no block uses *)
    (forall j o, nth_error (objs h') j = Some (Some o) -> o_blk o <> b) /\
    (* and the reference is gone *)
    history h' (fst w, drop i (snd w)).
Proof.
  intros H V G. destruct (history_inv _ _ H) as (I & Cl). destruct w as (nodes, own). cbn [fst snd] in I.
  destruct (step_ok h nodes own _ I Cl V) as (h' & r & E & I' & Cl' & P).
  assert (In i own) as Hi by apply V. destruct (get_data_vals _ _ _ _ _ I Hi G) as (m & Nm & Em).
  destruct r as [| |b off n]; try contradiction. destruct P as (m' & cc & rr & Nm' & B & -> & En & Ln & Sl & P). assert (m' = m) as -> by congruence. rewrite Em in *. subst n.
  exists h', b, cc, rr. split; auto. split; auto. split; auto. split; auto. cbn [after fst snd] in I'.
  assert (forall j o, nth_error (objs h') j = Some (Some o) -> exists nj c, nth_error nodes j = Some nj /\ o_blk o = n_blk nj /\ nth_error (blks h') (o_blk o) = Some (c, 0)) as X.
  { intros j o Hj. assert (live h' j o) as Lj by (split; auto; eapply Cl'; eauto). destruct (live_lt _ _ _ _ _ I' Lj) as (nj & Nj). exists nj.
    destruct (inv_match _ _ _ I' j o nj Lj Nj) as (M1 & _ & _ & _ & _ & _ & c & M2 & _). eauto. }
  split; [|split].
  - destruct P as [P|(Up & Ow & -> & -> & _)]; [auto|]. right. split; auto.
    destruct (inv_blk _ _ _ I i m Nm Up) as (c0 & r0 & E0 & R0 & _). destruct (owned_live _ _ _ _ I Hi) as (o & m2 & L & _). rewrite (R0 (ex_intro _ o L)) in E0.
    rewrite E0. f_equal. f_equal.
    (* the contents do not change *)
    pose proof (owned_live _ _ _ _ I Hi) as (o2 & m3 & (L1 & _) & Nm3 & M). assert (m3 = m) as -> by congruence. assert (M1 := M). destruct M1 as (Mb & Mf & _).
    cbn [step] in E. unfold unref_to_data, get in E. rewrite L1 in E. cbn [bind] in E. set (n := s32 (o_refs o2 - 1)) in *. set (h1 := set_obj h i (Some (set_refs o2 n))) in *.
    assert (forall cp, nth_error (blks h ++ [(cp, 0)]) (n_blk m) = Some (c0, 0)) as Q. { intros. rewrite nth_error_app1; auto. eapply nth_lt; eauto. }
    destruct (n =? 0).
    + destruct (o_free o2) as [| | |p].
      * discriminate.
      * unfold give, finish in E. change (blks h1) with (blks h) in E. rewrite Mb, E0 in E. cbn [bind Z.eqb] in E. injection E as E _. rewrite <- E in B. cbn [set_obj blks] in B. rewrite nth_upd, Nat.eqb_refl, E0 in B. congruence.
      * destruct (read h1 _ _ _); cbn [bind add_blk] in E; [|discriminate]. unfold release, finish in E. cbn [blks] in E. change (blks h1) with (blks h) in E. rewrite Mb, Q in E. cbn [bind Z.eqb] in E. injection E as _ E _.
        apply nth_lt in E0. lia.
      * congruence.
    + destruct (read h1 _ _ _); cbn [bind add_blk] in E; [|discriminate]. injection E as _ E _. apply nth_lt in E0. change (blks h1) with (blks h) in E. lia.
  - intros j o Hj Eb. destruct (X j o Hj) as (nj & c & Nj & Enj & Bj). destruct P as [(-> & _)|(_ & _ & -> & -> & _)].
    + pose proof (node_blk_lt _ _ _ I j nj Nj). lia.
    + rewrite Eb in Bj. congruence.
  - exact (history_cons h (nodes, own) (CToData i) h' (RData b 0 (len v)) H V E).
Qed.
Print Assumptions C45_unref_to_data_partial.

(* the whole block is handed over if the caller has the only reference to it, otherwise it is copied *)
Example C45_example : correct ex_w1 (CToData 0) /\ step ex_h1 (CToData 0) = Ok (mkHeap [None] [([10; 20; 30], 2)], RData 0 0 3) /\
  exists h w, history h w /\ correct w (CToData 1) /\
    step h (CToData 1) = Ok (mkHeap [Some (mkObj 0 0 3 1 KFree); None] [([10; 20; 30], 0); ([20; 30], 0)], RData 1 0 2).
Proof.
  split. { split; [left; auto|]. intros n E _. injection E as <-. discriminate. }
  split; [reflexivity|]. assert (H2 := history_cons _ _ (CSlice 0 1 5) _ _ ex_history1 ltac:(cbn; lia) eq_refl).
  eexists _, _. split; [exact H2|]. split; [|reflexivity]. split; [left; auto|]. intros n E U. cbn in E. injection E as <-. discriminate.
Qed.

(* static data with two references *)
Example C45_example_static : exists h w, history h w /\ correct w (CToData 0) /\
  step h (CToData 0) = Ok (mkHeap [Some (mkObj 0 0 2 1 KNull)] [([1; 2], 0); ([1; 2], 0)], RData 1 0 2).
Proof.
  assert (H1 := history_cons _ ([], []) (CNew Static [1; 2]) _ _ history_nil eq_refl eq_refl).
  assert (H2 := history_cons _ _ (CRef 0) _ _ H1 ltac:(cbn; lia) eq_refl).
  eexists _, _. split; [exact H2|]. split; [|reflexivity]. split; [left; auto|]. intros n _ _ _. exists 0%nat. split; [left; reflexivity|apply desc_refl].
Qed.

(* the last reference to static data: a NULL function is called *)
Theorem C45_static h w i n : history h w -> In i (snd w) -> nth_error (fst w) i = Some n -> n_up n = None -> n_own n = false ->
  ~ needed (fst w, drop i (snd w)) i -> step h (CToData i) = Fail NullCall.
Proof. intros H Hi N U W X. destruct (history_inv _ _ H) as (I & _). destruct w. eapply to_data_static; eauto. Qed.
Print Assumptions C45_static.

Theorem C45_static_refuted : exists h w i v, history h w /\ In i (snd w) /\ get_data h i = Ok v /\ step h (CToData i) = Fail NullCall.
Proof.
  exists (mkHeap [Some (mkObj 0 0 2 1 KNull)] [([1; 2], 0)]), ([mkNode None 0 false [1; 2]], [0%nat]), 0%nat, [1; 2].
  split; [|split; [left; auto|split; reflexivity]].
  apply (history_cons (mkHeap [] []) ([], []) (CNew Static [1; 2]) _ (RNew (Some 0%nat) 0)); [apply history_nil| |reflexivity]. reflexivity.
Qed.
Print Assumptions C45_static_refuted.

(* ================= C80: searching ================= *)
(* Missing for gutil_ints_find: positions of 2^31 and more *)
Theorem C80_find_partial p v : valid_ptr p ->
  (ints_contains p v = true <-> In v (contents p)) /\
  (~ In v (contents p) -> ints_find p v = -1) /\
  (forall pre suf, contents p = pre ++ v :: suf -> ~ In v pre -> len pre < 2^31 -> ints_find p v = len pre).
Proof.
  intros V. destruct p as [[a l]|]; cbn [contents ints_contains ints_find valid_ptr] in *.
  - destruct V as (_ & Ll & _). split; [|split].
    + rewrite existsb_exists. split.
      * intros (x & Hx & E). apply Z.eqb_eq in E. congruence.
      * intros H. exists v. split; auto. apply Z.eqb_refl.
    + apply ifind_none.
    + intros pre suf -> N Hp. pose proof (len_nonneg pre). rewrite ifind_at; auto; [|lia|lia]. apply s32_id. unfold in_s32. lia.
  - split; [split; [discriminate|contradiction]|]. split; auto. intros [|? ?] suf E; discriminate.
Qed.
Print Assumptions C80_find_partial.

Example C80_example : ints_find (Some (100, [5; 7; 5; 9])) 9 = 3 /\ ints_find (Some (100, [5; 7; 5; 9])) 5 = 0 /\ ints_contains (Some (100, [5; 7])) 9 = false.
Proof. repeat split. Qed.

(* a value found at position 2^31 - but the result looks like "not found" *)
Theorem C80_find_refuted : exists p v, valid_ptr p /\ In v (contents p) /\ ints_contains p v = true /\ ints_find p v < 0.
Proof.
  assert (exists n, n = 2^31) as (n & Hn) by eauto.
  set (pre := repeat 0 (Z.to_nat n)). assert (len pre = n) as Lp by (unfold len, pre; rewrite repeat_length; lia).
  exists (Some (100, pre ++ [1])), 1. cbn [valid_ptr contents ints_contains ints_find].
  assert (In 1 (pre ++ [1])) as Hi by (apply in_or_app; right; left; auto).
  split; [|split; [|split]].
  - split; [destruct pre; discriminate|]. split; [rewrite len_app, Lp; cbn; lia|]. apply Forall_app. split; [|repeat constructor; unfold in_s32; lia].
    apply Forall_forall. intros x Hx. apply repeat_spec in Hx. subst. unfold in_s32. lia.
  - auto.
  - apply existsb_exists. exists 1. split; auto.
  - rewrite ifind_at; [|intros Hx; apply repeat_spec in Hx; discriminate|lia|lia]. rewrite Lp. subst n. reflexivity.
Qed.
Print Assumptions C80_find_refuted.
