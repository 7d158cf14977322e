(* Property C101: the capacity of the ring *)
From Verif Require Import Base RingModel RingSpec RingRoomSpec RingProofs RingProps.
From Coq Require Import ZifyBool.
Ltac Zify.zify_post_hook ::= Z.div_mod_to_equations.

(* ---------------- one call ---------------- *)

Lemma reserve_room L d r i n : 0 <= alloc r <= L -> L < 2^30 -> -1 <= maxsiz r < 2^31 ->
  (forall b r', reserve L d r n = Ok (b, r') ->
     match grown (Rm i (alloc r) (maxsiz r)) n with
     | Some c => b = true /\ alloc r' = c /\ c <= L
     | None => b = false /\ r' = r
     end) /\
  (reserve L d r n = Fail AllocAbort ->
     exists c, grown (Rm i (alloc r) (maxsiz r)) n = Some c /\ L < c).
Proof.
  intros HA HL HM. unfold reserve, grown. cbn [cap most].
  destruct (n <=? alloc r) eqn:E1.
  { split; [|discriminate]. intros b r' H. inversion H; subst. repeat split; lia. }
  replace ((maxsiz r >=? 0) && (alloc r >=? maxsiz r)) with ((0 <=? maxsiz r) && (maxsiz r <=? alloc r)) by lia.
  destruct ((0 <=? maxsiz r) && (maxsiz r <=? alloc r)) eqn:E2.
  { split; [|discriminate]. intros b r' H. inversion H; subst. auto. }
  rewrite arith_ok by lia. cbn [bind]. replace (alloc r * 2) with (2 * alloc r) by lia.
  set (c := if (maxsiz r >? 0) && (Z.max n (2 * alloc r) >? maxsiz r) then maxsiz r else Z.max n (2 * alloc r)).
  assert (c = if 0 <=? maxsiz r then Z.min (Z.max n (2 * alloc r)) (maxsiz r) else Z.max n (2 * alloc r)) as Ec.
  { unfold c. destruct ((maxsiz r >? 0) && (Z.max n (2 * alloc r) >? maxsiz r)) eqn:E3; destruct (0 <=? maxsiz r) eqn:E4; lia. }
  rewrite <- Ec. assert (0 <= c) by (destruct (0 <=? maxsiz r) eqn:E4; lia). clearbody c.
  destruct (g_new_cases L c) as [(Hc & G)|(Hc & G)]; rewrite G; cbn [bind].
  2:{ split; [discriminate|]. intros _. exists c. split; auto. lia. }
  split.
  - intros b r' H1.
    assert (forall s e buf, Ok (true, set_buf r c s e buf) = Ok (b, r') -> b = true /\ alloc r' = c /\ c <= L) as K.
    { intros s e buf H2. inversion H2; subst. repeat split; lia. }
    repeat match type of H1 with
    | (if ?x then _ else _) = _ => destruct x
    | bind ?x _ = _ => destruct x; cbn [bind] in H1; [|discriminate]
    end; eapply K; exact H1.
  - intros H1. exfalso.
    assert (forall a, arith32 d a <> Fail AllocAbort) as A1.
    { intros a. unfold arith32. destruct d; repeat match goal with |- context [if ?x then _ else _] => destruct x end; discriminate. }
    assert (forall a p b q n0, memcpy a p b q n0 <> Fail AllocAbort) as A2.
    { intros a p b q n0. unfold memcpy. repeat match goal with |- context [if ?x then _ else _] => destruct x end; discriminate. }
    repeat match type of H1 with
    | (if ?x then _ else _) = _ => destruct x
    | bind ?x _ = _ => destruct x eqn:?; cbn [bind] in H1; [|congruence]
    end; discriminate.
Qed.

Lemma arith_noabort d a : arith32 d a <> Fail AllocAbort.
Proof. unfold arith32. destruct d; repeat match goal with |- context [if ?x then _ else _] => destruct x end; discriminate. Qed.
Lemma wr_noabort {A} (l : list A) i x : wr l i x <> Fail AllocAbort.
Proof. unfold wr. repeat match goal with |- context [if ?x then _ else _] => destruct x end; discriminate. Qed.
Lemma crem_noabort a b : crem a b <> Fail AllocAbort.
Proof. unfold crem. destruct (b =? 0); discriminate. Qed.

Lemma put_room L d r x n : size d r = Ok n -> 0 <= alloc r <= L -> L < 2^30 -> 0 <= n <= L -> -1 <= maxsiz r < 2^31 ->
  (forall b r', put L d r x = Ok (b, r') ->
     match grown (Rm n (alloc r) (maxsiz r)) (n + 1) with
     | Some c => b = true /\ alloc r' = c /\ c <= L
     | None => b = false /\ r' = r
     end) /\
  (put L d r x = Fail AllocAbort ->
     exists c, grown (Rm n (alloc r) (maxsiz r)) (n + 1) = Some c /\ L < c).
Proof.
  intros Sz HA HL HN HM. unfold put. rewrite Sz. cbn [bind]. rewrite arith_ok by lia. cbn [bind].
  destruct (reserve_room L d r n (n + 1) HA HL HM) as (R1 & R2).
  destruct (reserve L d r (n + 1)) as [[ok r1]|e]; cbn [bind].
  2:{ split; [discriminate|]. intros H. apply R2. exact H. }
  clear R2. specialize (R1 _ _ eq_refl).
  destruct ok; [|split; [|discriminate]; intros b r' H; inversion H; subst; exact R1].
  destruct (grown (Rm n (alloc r) (maxsiz r)) (n + 1)) as [c|]; [|destruct R1; discriminate].
  destruct R1 as (_ & A1 & A2).
  set (r2 := if start r1 <? 0 then set_se r1 0 0 else r1).
  assert (alloc r2 = c) as A3 by (unfold r2; destruct (start r1 <? 0); auto). clearbody r2.
  pose proof (@wr_noabort (option Z) (data r2) (end_ r2) (Some x)) as W. destruct (wr (data r2) (end_ r2) (Some x)); cbn [bind].
  2:{ split; [discriminate|]. congruence. }
  pose proof (arith_noabort d (end_ r2 + 1)) as W2. destruct (arith32 d (end_ r2 + 1)) as [e1|]; cbn [bind].
  2:{ split; [discriminate|]. congruence. }
  pose proof (crem_noabort e1 (alloc r2)) as W3. destruct (crem e1 (alloc r2)); cbn [bind].
  2:{ split; [discriminate|]. congruence. }
  split; [|discriminate]. intros b r' H. inversion H; subst. auto.
Qed.

Lemma put_front_room L d r x n : size d r = Ok n -> 0 <= alloc r <= L -> L < 2^30 -> 0 <= n <= L -> -1 <= maxsiz r < 2^31 ->
  (forall b r', put_front L d r x = Ok (b, r') ->
     match grown (Rm n (alloc r) (maxsiz r)) (n + 1) with
     | Some c => b = true /\ alloc r' = c /\ c <= L
     | None => b = false /\ r' = r
     end) /\
  (put_front L d r x = Fail AllocAbort ->
     exists c, grown (Rm n (alloc r) (maxsiz r)) (n + 1) = Some c /\ L < c).
Proof.
  intros Sz HA HL HN HM. unfold put_front. rewrite Sz. cbn [bind]. rewrite arith_ok by lia. cbn [bind].
  destruct (reserve_room L d r n (n + 1) HA HL HM) as (R1 & R2).
  destruct (reserve L d r (n + 1)) as [[ok r1]|e]; cbn [bind].
  2:{ split; [discriminate|]. intros H. apply R2. exact H. }
  clear R2. specialize (R1 _ _ eq_refl).
  destruct ok; [|split; [|discriminate]; intros b r' H; inversion H; subst; exact R1].
  destruct (grown (Rm n (alloc r) (maxsiz r)) (n + 1)) as [c|]; [|destruct R1; discriminate].
  destruct R1 as (_ & A1 & A2).
  match goal with |- context [bind ?m (fun r0 => bind (wr (data r0) _ _) _)] => set (k := m) end.
  assert (match k with Ok r2 => alloc r2 = c | Fail e => e <> AllocAbort end) as A3.
  { unfold k. destruct (start r1 >=? 0); [|exact A1].
    pose proof (arith_noabort d (start r1 + alloc r1)) as W1. destruct (arith32 d (start r1 + alloc r1)) as [e1|]; cbn [bind]; [|congruence].
    pose proof (arith_noabort d (e1 - 1)) as W2. destruct (arith32 d (e1 - 1)) as [e2|]; cbn [bind]; [|congruence].
    pose proof (crem_noabort e2 (alloc r1)) as W3. destruct (crem e2 (alloc r1)); cbn [bind]; [exact A1|congruence]. }
  clearbody k. destruct k as [r2|e]; cbn [bind]; [|split; [discriminate|congruence]].
  pose proof (@wr_noabort (option Z) (data r2) (start r2) (Some x)) as W. destruct (wr (data r2) (start r2) (Some x)); cbn [bind].
  2:{ split; [discriminate|]. congruence. }
  split; [|discriminate]. intros b r' H. inversion H; subst. auto.
Qed.

Lemma get_last_alloc d r x r' : get_last d r = Ok (x, r') -> alloc r' = alloc r.
Proof.
  unfold get_last. intros H.
  repeat match type of H with
  | (if ?x then _ else _) = _ => destruct x
  | bind ?x _ = _ => destruct x; cbn [bind] in H; [|discriminate]
  end; inversion H; reflexivity.
Qed.

Lemma compact_alloc L d r n r' : size d r = Ok n -> 0 <= n <= alloc r -> compact L d r = Ok r' -> alloc r' = n.
Proof.
  intros Sz HN H. unfold compact in H. rewrite Sz in H. cbn [bind] in H.
  destruct (alloc r >? n) eqn:E; [|inversion H; subst; lia].
  destruct (n >? 0) eqn:E2; [|inversion H; subst; cbn; lia].
  repeat match type of H with
  | (if ?x then _ else _) = _ => destruct x
  | bind ?x _ = _ => destruct x; cbn [bind] in H; [|discriminate]
  end; inversion H; reflexivity.
Qed.

Definition room_of (r : ring) (q : deque) : room := Rm (len (items q)) (alloc r) (bound q).

Lemma step_room L flat d r q o : rep L flat r q -> L < 2^30 -> fair o -> 0 < refs q ->
  (step L d [] r o = Fail AllocAbort -> ~ fits L (room_of r q) o) /\
  (forall x r' ev q', step L d [] r o = Ok (x, r') -> call q o x ev q' ->
     said x = reply (room_of r q) o /\ fits L (room_of r q) o /\
     (0 < refs q' -> room_of r' q' = next (room_of r q) o)).
Proof.
  intros R HL Hf Href.
  pose proof (rp_alloc _ _ _ _ R) as HA. pose proof (rp_lay _ _ _ _ R) as Lay.
  pose proof (layout_le _ _ _ _ _ Lay ltac:(lia)) as HN. pose proof (len_nonneg (items q)).
  pose proof (rep_size L flat d r q R HL) as Sz. pose proof (rp_maxr _ _ _ _ R) as HM.
  rewrite <- (rp_max _ _ _ _ R) in HM.
  pose proof (rp_max _ _ _ _ R) as EM.
  destruct (step_spec L flat d r q o R HL Hf Href) as [(_ & _ & E)|SS].
  { rewrite E. split; discriminate. }
  assert (request (room_of r q) o = None ->
    (step L d [] r o = Fail AllocAbort -> ~ fits L (room_of r q) o)) as NA.
  { intros K1 K2. destruct SS as [(_ & _ & K3)|(x & r' & _ & _ & E & _)]; [|congruence].
    destruct o; cbn [asked request] in *; try discriminate; lia. }
  clear SS.
  split.
  - destruct o; try (apply NA; reflexivity); clear NA; unfold step, touch; rewrite (rp_gone _ _ _ _ R); cbn [bind].
    + destruct (put_room L d r x _ Sz ltac:(lia) HL ltac:(lia) HM) as (_ & A).
      intros H1. destruct (put L d r x) as [[? ?]|e]; cbn [bind] in H1; [discriminate|]. destruct A as (c & G & K); [congruence|].
      unfold fits, room_of. cbn [request inside]. rewrite <- EM, G. lia.
    + destruct (put_front_room L d r x _ Sz ltac:(lia) HL ltac:(lia) HM) as (_ & A).
      intros H1. destruct (put_front L d r x) as [[? ?]|e]; cbn [bind] in H1; [discriminate|]. destruct A as (c & G & K); [congruence|].
      unfold fits, room_of. cbn [request inside]. rewrite <- EM, G. lia.
    + destruct (reserve_room L d r (len (items q)) n ltac:(lia) HL HM) as (_ & A).
      intros H1. destruct (reserve L d r n) as [[? ?]|e]; cbn [bind] in H1; [discriminate|]. destruct A as (c & G & K); [congruence|].
      unfold fits, room_of. cbn [request]. rewrite <- EM, G. lia.
  - clear NA. intros y r' ev q' E C. unfold step, touch in E. rewrite (rp_gone _ _ _ _ R) in E. cbn [bind] in E.
    unfold room_of. rewrite <- EM.
    destruct o; cbn [call] in C; unfold fits; cbn [request inside reply cap most].
    + destruct (put_room L d r x _ Sz ltac:(lia) HL ltac:(lia) HM) as (A & _).
      destruct (put L d r x) as [[b r1]|]; cbn [bind] in E; [|discriminate]. inversion E; subst y r1. specialize (A _ _ eq_refl).
      unfold next. cbn [inside most]. destruct (grown _ _) as [c|].
      * destruct A as (-> & A1 & A2). split; [reflexivity|]. split; [exact A2|]. intros _.
        destruct C as [(_ & _ & ->)|(K & _)]; [|discriminate]. cbn [items with_items bound]. rewrite len_app, <- EM, A1. reflexivity.
      * destruct A as (-> & ->). split; [reflexivity|]. split; [exact Logic.I|]. intros _.
        destruct C as [(K & _)|(_ & _ & -> & _)]; [discriminate|]. rewrite <- EM. reflexivity.
    + destruct (put_front_room L d r x _ Sz ltac:(lia) HL ltac:(lia) HM) as (A & _).
      destruct (put_front L d r x) as [[b r1]|]; cbn [bind] in E; [|discriminate]. inversion E; subst y r1. specialize (A _ _ eq_refl).
      unfold next. cbn [inside most]. destruct (grown _ _) as [c|].
      * destruct A as (-> & A1 & A2). split; [reflexivity|]. split; [exact A2|]. intros _.
        destruct C as [(_ & _ & ->)|(K & _)]; [|discriminate]. cbn [items with_items bound]. rewrite len_cons, <- EM, A1.
        f_equal. lia.
      * destruct A as (-> & ->). split; [reflexivity|]. split; [exact Logic.I|]. intros _.
        destruct C as [(K & _)|(_ & _ & -> & _)]; [discriminate|]. rewrite <- EM. reflexivity.
    + destruct (get d r) as [[p r1]|] eqn:G; cbn [bind] in E; [|discriminate]. inversion E; subst y r1.
      split; [reflexivity|]. split; [exact Logic.I|]. intros _. rewrite (get_alloc _ _ _ _ G). cbn [next inside cap most].
      destruct (items q) as [|z l] eqn:EI; destruct C as (_ & _ & ->); cbn [with_items bound items]; rewrite ?EI, <- ?EM, ?len_cons; f_equal.
      pose proof (len_nonneg l). lia.
    + destruct (get_last d r) as [[p r1]|] eqn:G; cbn [bind] in E; [|discriminate]. inversion E; subst y r1.
      split; [reflexivity|]. split; [exact Logic.I|]. intros _. rewrite (get_last_alloc _ _ _ _ G). cbn [next inside cap most].
      destruct C as [(EI & _ & _ & ->)|(t & z & EI & _ & _ & ->)]; cbn [with_items bound items]; rewrite EI, <- EM; f_equal.
      rewrite len_app. change (len [z]) with 1. pose proof (len_nonneg t). lia.
    + destruct (drop d [] r n) as [[p r1]|] eqn:G; cbn [bind] in E; [|discriminate]. inversion E; subst y r1.
      split; [reflexivity|]. split; [exact Logic.I|]. intros _. rewrite (drop_alloc _ _ _ _ _ G). cbn [next inside cap most].
      destruct C as (_ & _ & ->). cbn [with_items bound items]. rewrite <- EM. f_equal.
      unfold dropping, len in *. rewrite skipn_length. lia.
    + destruct (drop_last d [] r n) as [[p r1]|] eqn:G; cbn [bind] in E; [|discriminate]. inversion E; subst y r1.
      split; [reflexivity|]. split; [exact Logic.I|]. intros _. rewrite (drop_last_alloc _ _ _ _ _ G). cbn [next inside cap most].
      destruct C as (k & g & EI & K & _ & -> & _). cbn [with_items bound items]. rewrite <- EM. f_equal.
      unfold dropping in K. rewrite EI, len_app in *. lia.
    + destruct (clear d [] r) as [r1|] eqn:G; cbn [bind] in E; [|discriminate]. inversion E; subst y r1.
      split; [reflexivity|]. split; [exact Logic.I|]. intros _. rewrite (clear_alloc _ _ _ G). cbn [next inside cap most].
      destruct C as (_ & _ & ->). cbn [with_items bound items]. rewrite <- EM. reflexivity.
    + destruct (compact L d r) as [r1|] eqn:G; cbn [bind] in E; [|discriminate]. inversion E; subst y r1.
      split; [reflexivity|]. split; [exact Logic.I|]. intros _. rewrite (compact_alloc L d r (len (items q)) r' Sz ltac:(lia) G). cbn [next inside cap most].
      destruct C as (_ & _ & ->). rewrite <- EM. reflexivity.
    + destruct (reserve_room L d r (len (items q)) n ltac:(lia) HL HM) as (A & _).
      destruct (reserve L d r n) as [[b r1]|]; cbn [bind] in E; [|discriminate]. inversion E; subst y r1. specialize (A _ _ eq_refl).
      unfold next. cbn [inside most]. destruct C as (_ & _ & ->). destruct (grown _ _) as [c|].
      * destruct A as (-> & A1 & A2). split; [reflexivity|]. split; [exact A2|]. intros _. rewrite <- EM, A1. reflexivity.
      * destruct A as (-> & ->). split; [reflexivity|]. split; [exact Logic.I|]. intros _. rewrite <- EM. reflexivity.
    + destruct (set_max_size d [] r n) as [r1|] eqn:G; cbn [bind] in E; [|discriminate]. inversion E; subst y r1.
      split; [reflexivity|]. split; [exact Logic.I|]. intros _. rewrite (set_max_alloc _ _ _ _ G). cbn [next inside cap most].
      destruct C as (_ & _ & ->). cbn [bound items].
      destruct (n <? 0) eqn:En; cbn [orb].
      * replace ((-1 =? bound q) || (-1 <? 0)) with true by lia. reflexivity.
      * rewrite En. rewrite <- EM in *. destruct (n =? maxsiz r) eqn:E3; cbn [orb]; [reflexivity|]. f_equal.
        unfold dropping, len in *. rewrite skipn_length. lia.
    + inversion E; subst y r'. destruct C as (_ & _ & ->). rewrite <- EM. auto.
    + inversion E; subst y r'. destruct C as (_ & _ & ->). cbn [bound items]. rewrite <- EM. auto.
    + destruct (data_at d r i); cbn [bind] in E; [|discriminate]. inversion E; subst y r'. destruct C as (_ & _ & ->). rewrite <- EM. auto.
    + destruct (size d r); cbn [bind] in E; [|discriminate]. inversion E; subst y r'. destruct C as (_ & _ & ->). rewrite <- EM. auto.
    + destruct (can_put d r n); cbn [bind] in E; [|discriminate]. inversion E; subst y r'. destruct C as (K & _ & ->). rewrite <- EM in *.
      split; [cbn [said]; congruence|auto].
    + destruct (flatten_spec L flat d r q R HL) as (r1 & p & Ef & _ & _ & Al & _). rewrite Ef in E. cbn [bind] in E.
      inversion E; subst y r1. destruct C as (_ & _ & ->). rewrite <- EM, Al. auto.
    + inversion E; subst y r'. destruct C as (_ & _ & ->). cbn [bound items]. rewrite <- EM. auto.
    + destruct (unref d [] r) as [r1|] eqn:G; cbn [bind] in E; [|discriminate]. inversion E; subst y r1.
      split; [reflexivity|]. split; [exact Logic.I|]. intros P. rewrite (unref_alloc _ _ _ G).
      destruct C as (_ & C). destruct (refs q =? 1); destruct C as (_ & ->); cbn [refs bound items] in *; [lia|]. rewrite <- EM. reflexivity.
Qed.

(* ---------------- all calls ---------------- *)

Lemma run_room L d : L < 2^30 -> forall ops flat r q, rep L flat r q -> Forall fair ops -> owned (refs q) ops ->
  (run L d r ops = Fail AllocAbort -> ~ all_fit L (room_of r q) ops) /\
  (forall outs r', run L d r ops = Ok (outs, r') ->
     map said outs = replies (room_of r q) ops /\ all_fit L (room_of r q) ops /\
     (0 < left_ (refs q) ops -> size d r' = Ok (inside (final (room_of r q) ops)) /\
        alloc r' = cap (final (room_of r q) ops) /\ maxsiz r' = most (final (room_of r q) ops))).
Proof.
  intros HL. induction ops as [|o ops IH]; intros flat r q R F O.
  - split; [discriminate|]. intros outs r' H. inversion H; subst. split; [reflexivity|]. split; [exact Logic.I|]. intros _.
    cbn [final room_of inside cap most]. split; [eapply rep_size; eauto|]. split; [reflexivity|]. apply (rp_max _ _ _ _ R).
  - apply Forall_cons_iff in F. destruct F as (F1 & F2). destruct O as (O1 & O2). cbn [run all_fit final replies].
    destruct (step_room L flat d r q o R HL F1 O1) as (S1 & S2).
    destruct (step_spec L flat d r q o R HL F1 O1) as [(_ & _ & E)|[(E & _)|(x & r1 & ev & q1 & E & C & Fr & Rf & R1 & _)]].
    { rewrite E. split; discriminate. }
    { rewrite E. split; [|discriminate]. intros _ (K & _). exact (S1 E K). }
    rewrite E. cbn [bind]. destruct (S2 _ _ _ _ E C) as (A1 & A2 & A3). clear S1 S2.
    assert (owned (refs q1) ops) as O3 by (rewrite Rf; destruct o; exact O2).
    assert (left_ (refs q1) ops = left_ (refs q) (o :: ops)) as O4 by (rewrite Rf; destruct o; reflexivity).
    rewrite <- O4.
    destruct (Z.lt_ge_cases 0 (refs q1)) as [P1|P1].
    + specialize (A3 P1). rewrite <- A3.
      destruct (IH (flat_after flat o) r1 q1 (R1 P1) F2 O3) as (I1 & I2).
      destruct (run L d r1 ops) as [[l r2]|e]; cbn [bind].
      * split; [discriminate|]. intros outs r' H. inversion H; subst. destruct (I2 _ _ eq_refl) as (B1 & B2 & B3).
        cbn [map]. rewrite A1, B1. auto.
      * split; [|discriminate]. intros H (_ & K). apply I1; [congruence|exact K].
    + destruct ops as [|o2 ops]; [|destruct O3; lia]. cbn [run bind]. split; [discriminate|].
      intros outs r' H. inversion H; subst. cbn [map replies all_fit]. rewrite A1. split; [reflexivity|]. split; [auto|].
      cbn [left_]. lia.
Qed.

Lemma new_run_room L d reserved max f r ops :
  0 <= L < 2^30 -> in_s32 max -> new_full L reserved max f = Ok r -> Forall fair ops -> owned 1 ops ->
  (run L d r ops = Fail AllocAbort -> ~ all_fit L (new_room reserved max) ops) /\
  (forall outs r', run L d r ops = Ok (outs, r') ->
     map said outs = replies (new_room reserved max) ops /\ all_fit L (new_room reserved max) ops /\
     (0 < left_ 1 ops -> size d r' = Ok (inside (final (new_room reserved max) ops)) /\
        alloc r' = cap (final (new_room reserved max) ops) /\ maxsiz r' = most (final (new_room reserved max) ops))).
Proof.
  intros HL Hm Hn F O. destruct (new_rep L reserved max f r HL Hm Hn) as (R & _ & Al).
  pose proof (run_room L d ltac:(lia) ops false r _ R F O) as K.
  unfold room_of in K. rewrite Al in K. exact K.
Qed.

(* ------------------------------------------------------------------ C101 *)
(* In every run every addition, reservation and gutil_ring_can_put returns what the capacity and the
   limit determine, and the size in the end is so determined *)
Theorem C101_replies : forall L d reserved max f r ops outs r',
  0 <= L < 2^30 -> in_s32 max -> new_full L reserved max f = Ok r -> Forall fair ops -> owned 1 ops ->
  run L d r ops = Ok (outs, r') ->
  map said outs = replies (new_room reserved max) ops /\
  (0 < left_ 1 ops -> size d r' = Ok (inside (final (new_room reserved max) ops)) /\
     maxsiz r' = most (final (new_room reserved max) ops)).
Proof.
  intros L d reserved max f r ops outs r' HL Hm Hn F O Run.
  destruct (new_run_room L d reserved max f r ops HL Hm Hn F O) as (_ & K). destruct (K _ _ Run) as (K1 & _ & K3).
  split; auto. intros P. destruct (K3 P) as (? & ? & ?). auto.
Qed.
Print Assumptions C101_replies.

(* If nothing is added after gutil_ring_flatten, the run goes through exactly if the allocator can
   deliver each capacity so determined (an implementation growing faster would need more) *)
Theorem C101_memory : forall L d reserved max f r ops,
  0 <= L < 2^30 -> in_s32 max -> new_full L reserved max f = Ok r -> Forall fair ops -> owned 1 ops -> tame false ops ->
  ((exists outs r', run L d r ops = Ok (outs, r')) <-> all_fit L (new_room reserved max) ops).
Proof.
  intros L d reserved max f r ops HL Hm Hn F O T.
  destruct (new_run_room L d reserved max f r ops HL Hm Hn F O) as (K1 & K2). split.
  - intros (outs & r' & Run). apply (K2 _ _ Run).
  - intros A. destruct (C15_ring_is_deque L d reserved max f r ops HL Hm Hn F O T) as [E|(outs & r' & _ & _ & E & _)]; eauto.
    exfalso. exact (K1 E A).
Qed.
Print Assumptions C101_memory.

Lemma final_app s ops1 ops2 : final s (ops1 ++ ops2) = final (final s ops1) ops2.
Proof. revert s. induction ops1 as [|o ops1 IH]; intros s; cbn; auto. Qed.

Lemma replies_app s ops1 ops2 : replies s (ops1 ++ ops2) = replies s ops1 ++ replies (final s ops1) ops2.
Proof. revert s. induction ops1 as [|o ops1 IH]; intros s; cbn; [reflexivity|]. rewrite IH. reflexivity. Qed.

(* a room as it can be *)
Definition sane (s : room) : Prop := 0 <= inside s <= cap s /\ -1 <= most s.

Lemma grown_ge s k c : sane s -> grown s k = Some c -> cap s <= c /\ (k <= c \/ 0 <= most s /\ c = most s).
Proof.
  unfold sane, grown. intros H K. destruct (k <=? cap s) eqn:E1; [inversion K; lia|].
  destruct ((0 <=? most s) && (most s <=? cap s)) eqn:E2; [discriminate|]. inversion K. destruct (0 <=? most s) eqn:E3; lia.
Qed.

Lemma grown_put s c : sane s -> grown s (inside s + 1) = Some c -> inside s + 1 <= c.
Proof.
  unfold sane, grown. intros H K. destruct (inside s + 1 <=? cap s) eqn:E1; [inversion K; lia|].
  destruct ((0 <=? most s) && (most s <=? cap s)) eqn:E2; [discriminate|]. inversion K. destruct (0 <=? most s) eqn:E3; lia.
Qed.

Lemma next_sane s o : sane s -> sane (next s o).
Proof.
  intros H. destruct o; cbn [next]; auto.
  1,2: destruct (grown s (inside s + 1)) eqn:G; auto; pose proof (grown_put s _ H G); unfold sane in *; cbn; lia.
  1,2,3,4,5,6: unfold sane in *; cbn; lia.
  - destruct (grown s n) as [c|] eqn:G; auto. pose proof (grown_ge s n c H G). unfold sane in *; cbn; lia.
  - destruct (n <? 0) eqn:En; unfold sane in *; cbn; [lia|]. destruct (n =? most s); lia.
Qed.

Lemma final_sane ops : forall s, sane s -> sane (final s ops).
Proof. induction ops as [|o ops IH]; intros s H; cbn; auto. apply IH, next_sane, H. Qed.

Lemma new_sane L reserved max f r : new_full L reserved max f = Ok r -> sane (new_room reserved max).
Proof.
  intros H. unfold new_full in H. assert (0 <= reserved).
  { destruct (reserved =? 0) eqn:E; cbn [negb] in H; [lia|]. destruct (g_new_cases L reserved) as [(K & _)|(_ & G)]; [lia|].
    rewrite G in H. discriminate. }
  unfold sane, new_room. cbn. destruct (max <? 0) eqn:E; lia.
Qed.

Lemma final_limit m ops : limits m ops -> forall s, sane s -> 0 <= most s <= m ->
  cap (final s ops) <= Z.max (cap s) m.
Proof.
  induction ops as [|o ops IH]; intros HL s HS HM; [cbn; lia|].
  assert (limits m ops) as HL2 by (intros k Hk; apply HL; right; exact Hk).
  assert (0 <= most (next s o) <= m /\ cap (next s o) <= Z.max (cap s) m) as (N1 & N2).
  { assert (forall k c, grown s k = Some c -> c <= Z.max (cap s) m) as G.
    { intros k c. unfold grown. destruct (k <=? cap s); [intros H; inversion H; lia|].
      destruct ((0 <=? most s) && (most s <=? cap s)); [discriminate|]. intros H; inversion H. replace (0 <=? most s) with true by lia. lia. }
    unfold sane in HS. destruct o; cbn [next]; try (split; [exact HM|cbn; lia]); try (cbn; lia).
    1,2: destruct (grown s (inside s + 1)) as [c|] eqn:E; cbn; [specialize (G _ _ E)|]; lia.
    - destruct (grown s n) as [c|] eqn:E; cbn; [specialize (G _ _ E)|]; lia.
    - specialize (HL n ltac:(left; reflexivity)). replace (n <? 0) with false by lia. cbn. lia. }
  cbn [final]. specialize (IH HL2 (next s o) (next_sane s o HS) N1). lia.
Qed.

(* However the limit is moved about below m, there are never more elements than m or than were
   reserved when the ring was created *)
Theorem C101_limit : forall L d reserved max f r ops outs r' m,
  0 <= L < 2^30 -> in_s32 max -> new_full L reserved max f = Ok r -> Forall fair ops -> owned 1 ops -> 0 < left_ 1 ops ->
  run L d r ops = Ok (outs, r') -> 0 <= max <= m -> limits m ops ->
  exists n, size d r' = Ok n /\ n <= Z.max reserved m.
Proof.
  intros L d reserved max f r ops outs r' m HL Hm Hn F O P Run HM Lim.
  destruct (C101_replies L d reserved max f r ops outs r' HL Hm Hn F O Run) as (_ & K). destruct (K P) as (Sz & _).
  pose proof (new_sane _ _ _ _ _ Hn) as HS.
  exists (inside (final (new_room reserved max) ops)). split; auto.
  assert (0 <= most (new_room reserved max) <= m) as B0 by (unfold new_room; cbn; destruct (max <? 0) eqn:E; lia).
  pose proof (final_limit m ops Lim _ HS B0) as B. pose proof (final_sane ops _ HS) as (S1 & _).
  change (cap (new_room reserved max)) with reserved in B. lia.
Qed.
Print Assumptions C101_limit.

(* False: gutil_ring_reserve can return TRUE although as many elements do not fit: a limit above the
   capacity cuts the reservation silently *)
Theorem C101_reserve_refuted :
  exists max k ops r outs r', new_full 100 0 max None = Ok r /\ Forall fair ops /\ owned 1 ops /\
    run 100 Strict r (Reserve k :: ops) = Ok (OBool true :: outs, r') /\
    len ops <= k /\ (forall o, In o ops -> exists x, o = Put x) /\ In (OBool false) outs.
Proof.
  eexists 2, 3, [Put 1; Put 2; Put 3], _, _, _. split; [reflexivity|].
  split; [all_fair|]. split; [vm_compute; repeat (split; [reflexivity|]); exact Logic.I|]. split; [vm_compute; reflexivity|].
  split; [vm_compute; discriminate|]. split; [|cbn; auto].
  intros o [<-|[<-|[<-|[]]]]; eauto.
Qed.
Print Assumptions C101_reserve_refuted.

Definition puts_only (ops : list op) : Prop := forall o, In o ops -> exists x, o = Put x \/ o = PutFront x.

Lemma puts_fit L ops : puts_only ops -> forall s, inside s + len ops <= cap s -> cap s <= L ->
  replies s ops = repeat (Some true) (length ops) /\ all_fit L s ops.
Proof.
  intros HP. induction ops as [|o ops IH]; intros s H HL; [split; [reflexivity|exact Logic.I]|].
  rewrite len_cons in H. pose proof (len_nonneg ops).
  assert (grown s (inside s + 1) = Some (cap s)) as G.
  { unfold grown. replace (inside s + 1 <=? cap s) with true by lia. reflexivity. }
  assert (puts_only ops) as HP2 by (intros o2 H2; apply HP; right; exact H2).
  destruct (HP o ltac:(left; reflexivity)) as (x & [-> | ->]); cbn [replies all_fit length repeat reply request next fits];
    unfold fits; cbn [request]; rewrite G; destruct (IH HP2 (Rm (inside s + 1) (cap s) (most s))) as (B1 & B2); cbn [inside cap]; auto; try lia; rewrite B1; auto.
Qed.

Lemma all_fit_app L s ops1 ops2 : all_fit L s (ops1 ++ ops2) <-> all_fit L s ops1 /\ all_fit L (final s ops1) ops2.
Proof. revert s. induction ops1 as [|o ops1 IH]; intros s; cbn [app all_fit final]; [tauto|]. rewrite IH. tauto. Qed.

Lemma tame_app ops1 : forall flat ops2, tame flat (ops1 ++ ops2) <-> tame flat ops1 /\ tame (fold_left flat_after ops1 flat) ops2.
Proof.
  induction ops1 as [|o ops1 IH]; intros flat ops2; cbn [app fold_left]; [cbn; tauto|]. rewrite !tame_step, IH. tauto.
Qed.

Lemma run_app L d ops1 ops2 : forall r, run L d r (ops1 ++ ops2) =
  do (o1, r1) <- run L d r ops1; do (o2, r2) <- run L d r1 ops2; Ok (o1 ++ o2, r2).
Proof.
  induction ops1 as [|o ops1 IH]; intros r; cbn [app run bind].
  - destruct (run L d r ops2) as [[? ?]|]; reflexivity.
  - destruct (step L d [] r o) as [[x r1]|]; cbn [bind]; [|reflexivity]. rewrite IH.
    destruct (run L d r1 ops1) as [[l r2]|]; cbn [bind]; [|reflexivity].
    destruct (run L d r2 ops2) as [[? ?]|]; reflexivity.
Qed.

Lemma owned_puts ops n : puts_only ops -> 0 < n -> owned n ops.
Proof.
  intros HP Hn. induction ops as [|o ops IH]; [exact Logic.I|].
  assert (puts_only ops) as HP2 by (intros o2 H2; apply HP; right; exact H2).
  destruct (HP o ltac:(left; reflexivity)) as (x & [-> | ->]); cbn; auto.
Qed.

Lemma owned_app ops1 : forall n ops2, owned n ops1 -> owned (left_ n ops1) ops2 -> owned n (ops1 ++ ops2).
Proof.
  induction ops1 as [|o ops1 IH]; intros n ops2 H1 H2; [exact H2|]. destruct H1 as (A & B).
  cbn [app owned]. split; auto. apply IH; auto. destruct o; exact H2.
Qed.

Lemma fair_puts ops : puts_only ops -> Forall fair ops.
Proof. intros HP. apply Forall_forall. intros o Ho. destruct (HP o Ho) as (x & [-> | ->]); exact Logic.I. Qed.

(* gutil_ring_reserve is exact about TRUE when it stays within the limit (or there is none): until
   so many elements are in the ring no addition fails, nor does it allocate (the run cannot end in
   an abort). Missing: reservations beyond the limit. *)
Theorem C101_reserve_partial : forall L d reserved max f r ops outs r' k puts,
  0 <= L < 2^30 -> in_s32 max -> in_s32 k -> new_full L reserved max f = Ok r ->
  Forall fair ops -> owned 1 ops -> 0 < left_ 1 ops -> tame false (ops ++ puts) ->
  run L d r (ops ++ [Reserve k]) = Ok (outs ++ [OBool true], r') ->
  (maxsiz r' < 0 \/ k <= maxsiz r') -> puts_only puts ->
  (forall n, size d r' = Ok n -> n + len puts <= k) ->
  exists r2, run L d r' puts = Ok (repeat (OBool true) (length puts), r2).
Proof.
  intros L d reserved max f r ops outs r' k puts HL Hm Hk Hn F O P T Run Lim HP Hsz.
  assert (Forall fair (ops ++ [Reserve k])) as F1 by (apply Forall_app; split; [exact F|]; constructor; [exact Hk|constructor]).
  assert (owned 1 (ops ++ [Reserve k])) as O1 by (apply owned_app; auto; split; [exact P|exact Logic.I]).
  assert (0 < left_ 1 (ops ++ [Reserve k])) as P1.
  { assert (forall l n, left_ n (l ++ [Reserve k]) = left_ n l) as ->; auto.
    induction l as [|o l IH]; intros n; [reflexivity|]. destruct o; cbn; apply IH. }
  destruct (new_run_room L d reserved max f r _ HL Hm Hn F1 O1) as (_ & K). destruct (K _ _ Run) as (K1 & K2 & K3).
  destruct (K3 P1) as (Sz & Al & Mx). specialize (Hsz _ Sz). clear K.
  pose proof (final_sane ops _ (new_sane _ _ _ _ _ Hn)) as HS.
  set (s := final (new_room reserved max) ops) in *.
  rewrite final_app in *. fold s in Sz, Al, Mx, Hsz. apply all_fit_app in K2. destruct K2 as (_ & K2). fold s in K2.
  cbn [final next all_fit] in *.
  rewrite map_app, replies_app in K1. cbn [map said replies] in K1. apply app_inj_tail in K1. destruct K1 as (_ & K1). fold s in K1.
  destruct K2 as (K2 & _). unfold fits in K2. cbn [request reply] in K1, K2.
  destruct (grown s k) as [c|] eqn:G; [|discriminate]. clear K1. cbn [inside cap most] in *.
  assert (k <= c) as Hc. { destruct (grown_ge s k c HS G) as (_ & [H|(H & ->)]); lia. }
  destruct (good_run L d reserved max f r _ _ r' HL Hm Hn F1 O1 Run) as (evs & q' & C & _ & Rf & R' & _).
  assert (exists r1 o1, run L d r ops = Ok (o1, r1)) as (r1 & o1 & Run1).
  { rewrite run_app in Run. destruct (run L d r ops) as [[? ?]|]; [eauto|discriminate]. }
  (* the whole run *)
  destruct (C101_memory L d reserved max f r ((ops ++ [Reserve k]) ++ puts) HL Hm Hn) as (_ & M).
  { apply Forall_app. split; auto. apply fair_puts; auto. }
  { apply owned_app; auto. apply owned_puts; auto. }
  { rewrite <- app_assoc. apply tame_app. apply tame_app in T. destruct T as (T1 & T2). split; auto. }
  destruct (puts_fit L puts HP (Rm (inside s) c (most s)) ltac:(cbn [inside cap]; lia) ltac:(cbn [cap]; lia)) as (B1 & B2).
  assert (final (new_room reserved max) (ops ++ [Reserve k]) = Rm (inside s) c (most s)) as EF.
  { rewrite final_app. fold s. cbn [final next]. rewrite G. reflexivity. }
  destruct M as (o3 & r3 & Run3).
  { rewrite !all_fit_app. destruct (new_run_room L d reserved max f r _ HL Hm Hn F O) as (_ & K). destruct (K _ _ Run1) as (_ & K4 & _).
    split; [split; [exact K4|]|].
    - fold s. cbn [all_fit]. split; [|exact Logic.I]. unfold fits. cbn [request]. rewrite G. exact K2.
    - rewrite EF. exact B2. }
  destruct (C101_replies L d reserved max f r ((ops ++ [Reserve k]) ++ puts) o3 r3 HL Hm Hn) as (K5 & _); auto.
  { apply Forall_app. split; auto. apply fair_puts; auto. }
  { apply owned_app; auto. apply owned_puts; auto. }
  rewrite run_app, Run in Run3. cbn [bind] in Run3.
  destruct (run L d r' puts) as [[l r2]|]; cbn [bind] in Run3; [|discriminate]. inversion Run3; subst o3 r3.
  exists r2. do 2 f_equal.
  rewrite replies_app, EF, B1, map_app in K5.
  destruct (C101_replies L d reserved max f r _ _ r' HL Hm Hn F1 O1 Run) as (K6 & _). rewrite K6 in K5. apply app_inv_head in K5.
  clear - K5. revert l K5. generalize (length puts). induction n as [|n IH]; intros l H; destruct l as [|x l]; try discriminate; [reflexivity|].
  cbn [map repeat] in *. injection H as H1 H2. destruct x; try discriminate. cbn in H1. injection H1 as ->. f_equal. apply IH. exact H2.
Qed.
Print Assumptions C101_reserve_partial.

(* Where gutil_ring_can_put(1) and the next addition disagree: exactly if the limit is reached and
   spare capacity left. (C18 without its restrictions.) *)
Theorem C101_can_put : forall L d reserved max f r ops outs r' front x b r2 c,
  0 <= L < 2^30 -> in_s32 max -> new_full L reserved max f = Ok r -> Forall fair ops -> owned 1 ops -> 0 < left_ 1 ops ->
  run L d r ops = Ok (outs, r') -> step L d [] r' (putting x front) = Ok (OBool b, r2) -> can_put d r' 1 = Ok c ->
  let s := final (new_room reserved max) ops in
  (c = true -> b = true) /\ (b <> c <-> 0 <= most s <= inside s /\ inside s < cap s).
Proof.
  intros L d reserved max f r ops outs r' front x b r2 c HL Hm Hn F O P Run Put_ Can s.
  pose proof (final_sane ops _ (new_sane _ _ _ _ _ Hn)) as HS. fold s in HS.
  assert (forall o y r3, fair o -> step L d [] r' o = Ok (y, r3) -> said y = reply s o) as K.
  { intros o y r3 Hf E. assert (run L d r (ops ++ [o]) = Ok (outs ++ [y], r3)) as R2.
    { rewrite run_app, Run. cbn [bind run]. rewrite E. reflexivity. }
    destruct (C101_replies L d reserved max f r (ops ++ [o]) (outs ++ [y]) r3 HL Hm Hn) as (K & _); auto.
    - apply Forall_app. split; auto.
    - apply owned_app; auto. split; [exact P|exact Logic.I].
    - rewrite map_app, replies_app in K. cbn [map replies] in K. apply app_inj_tail in K. tauto. }
  assert (said (OBool b) = reply s (putting x front)) as K1.
  { eapply K; [|exact Put_]. destruct front; exact Logic.I. }
  assert (said (OBool c) = reply s (CanPut 1)) as K2.
  { eapply (K (CanPut 1)); [cbn; lia|]. unfold step. 
    destruct (good_run L d reserved max f r ops outs r' HL Hm Hn F O Run) as (evs & q' & _ & _ & Rf & R' & _).
    destruct (R' ltac:(lia)) as (fl & R2). unfold touch. rewrite (rp_gone _ _ _ _ R2), Can. reflexivity. }
  assert (Some b = Some (match grown s (inside s + 1) with Some _ => true | None => false end)) as K3 by (destruct front; exact K1).
  cbn [said reply] in K2. inversion K3 as [K4]. inversion K2 as [K5]. clear K K1 K2 K3.
  unfold sane in HS. unfold grown. destruct (inside s + 1 <=? cap s) eqn:E1.
  - destruct ((most s <? 0) || (inside s + 1 <=? most s)) eqn:E2; split; auto; split; intros H; try congruence; lia.
  - destruct ((0 <=? most s) && (most s <=? cap s)) eqn:E2; destruct ((most s <? 0) || (inside s + 1 <=? most s)) eqn:E3; split; intros; try lia;
      try split; intros; try congruence; try lia.
Qed.
Print Assumptions C101_can_put.

(* a limit of 5 is lowered to 2 when room for 4 is there, then lifted *)
Definition c101_ops : list op :=
  [Put 1; Reserve 4; Put 2; CanPut 1; Reserve 9; Reserve 9; SetMaxSize 2; CanPut 1; Put 3; PutFront 4; Put 5; Put 6;
   Compact; Reserve 6; SetMaxSize (-1); Put 7; Reserve 8].
Definition c101_replies : list (option bool) :=
  [Some true; Some true; Some true; Some true; Some true; Some false; None; Some false; Some true; Some true; Some true; Some false;
   None; Some false; None; Some true; Some true].
Definition c101_new : ring := Eval vm_compute in match new_full 100 0 5 None with Ok r => r | Fail _ => set_gone (mkRing 0 0 0 0 0 [] None true []) end.
Definition c101_end : list out * ring := Eval vm_compute in match run 100 Strict c101_new c101_ops with Ok x => x | Fail _ => ([], c101_new) end.

Example C101_example :
  new_full 100 0 5 None = Ok c101_new /\ Forall fair c101_ops /\ owned 1 c101_ops /\ tame false c101_ops /\ 0 < left_ 1 c101_ops /\
  run 100 Strict c101_new c101_ops = Ok c101_end /\ map said (fst c101_end) = c101_replies /\
  final (new_room 0 5) c101_ops = Rm 6 10 (-1) /\ all_fit 10 (new_room 0 5) c101_ops /\ ~ all_fit 9 (new_room 0 5) c101_ops /\
  run 10 Strict c101_new c101_ops = Ok c101_end /\ run 9 Strict c101_new c101_ops = Fail AllocAbort.
Proof.
  split; [vm_compute; reflexivity|]. split; [all_fair|]. split; [vm_compute; repeat (split; [reflexivity|]); exact Logic.I|].
  split; [cbn; repeat (split; [auto|]); auto|]. split; [vm_compute; reflexivity|].
  split; [vm_compute; reflexivity|]. split; [vm_compute; reflexivity|]. split; [vm_compute; reflexivity|].
  split; [vm_compute; repeat (split; [discriminate|]); repeat split; discriminate|].
  split; [vm_compute; intros H; decompose [and] H; auto|]. split; vm_compute; reflexivity.
Qed.

(* a reservation kept: five additions after reserving seven with two elements inside *)
Example C101_example_reserve :
  exists r outs r', new_full 100 0 7 None = Ok r /\
  run 100 Strict r ([Put 1; Put 2] ++ [Reserve 7]) = Ok (outs ++ [OBool true], r') /\
  maxsiz r' = 7 /\ size Strict r' = Ok 2 /\
  exists r2, run 7 Strict r' [Put 3; PutFront 4; Put 5; Put 6; PutFront 7] = Ok (repeat (OBool true) 5, r2).
Proof.
  eexists _, [OBool true; OBool true], _. split; [reflexivity|]. split; [vm_compute; reflexivity|]. split; [reflexivity|]. split; [reflexivity|].
  eexists. vm_compute. reflexivity.
Qed.

(* the limit moved about below 3 *)
Example C101_example_limit :
  limits 3 [SetMaxSize 1; Put 1; Put 2; SetMaxSize 3; Put 3; Put 4; SetMaxSize 2; Put 5; Put 6] /\
  exists r outs r', new_full 100 0 2 None = Ok r /\
  run 100 Strict r [SetMaxSize 1; Put 1; Put 2; SetMaxSize 3; Put 3; Put 4; SetMaxSize 2; Put 5; Put 6] = Ok (outs, r') /\ size Strict r' = Ok 3 /\ maxsiz r' = 2.
Proof.
  split; [intros k H; repeat (destruct H as [H|H]; [inversion H; lia|]); contradiction|].
  eexists _, _, _. split; [reflexivity|]. split; [vm_compute; reflexivity|]. split; reflexivity.
Qed.

(* ------------------------------------------------------------------ C16 *)
(* Elements may be added after gutil_ring_flatten if none was put to the front or taken from it *)

Lemma reserve_start L d r n b r' : reserve L d r n = Ok (b, r') -> start r <= 0 -> start r' <= 0.
Proof.
  unfold reserve. intros H K.
  repeat match type of H with
  | (if ?x then _ else _) = _ => destruct x
  | bind ?x _ = _ => destruct x; cbn [bind] in H; [|discriminate]
  end; inversion H; subst; cbn [start set_buf]; lia.
Qed.

Lemma drop_last_loop_start d : forall n r r', drop_last_loop d n [] r = Ok r' -> start r' = start r.
Proof.
  induction n as [|n IH]; intros r r' H; cbn [drop_last_loop] in H; [inversion H; reflexivity|].
  unfold call_free in H.
  repeat match type of H with
  | bind ?x _ = _ => destruct x; cbn [bind] in H; [|discriminate]
  end.
  destruct (free_func _); [|discriminate]. cbn [bind] in H. apply IH in H. rewrite H. reflexivity.
Qed.

Lemma get_last_start d r x r' : get_last d r = Ok (x, r') -> start r <= 0 -> start r' <= 0.
Proof.
  unfold get_last. intros H K.
  repeat match type of H with
  | (if ?x then _ else _) = _ => destruct x
  | bind ?x _ = _ => destruct x; cbn [bind] in H; [|discriminate]
  end; inversion H; subst; cbn [start set_se]; lia.
Qed.

Lemma compact_start L d r r' : compact L d r = Ok r' -> start r <= 0 -> start r' <= 0.
Proof.
  unfold compact. intros H K.
  repeat match type of H with
  | (if ?x then _ else _) = _ => destruct x
  | bind ?x _ = _ => destruct x; cbn [bind] in H; [|discriminate]
  end; inversion H; subst; cbn [start set_buf]; lia.
Qed.

Lemma unref_loop_start d : forall n i r r', unref_loop d n i [] r = Ok r' -> start r' = start r.
Proof.
  induction n as [|n IH]; intros i r r' H; cbn [unref_loop] in H; [inversion H; reflexivity|].
  unfold call_free in H.
  repeat match type of H with
  | bind ?x _ = _ => destruct x; cbn [bind] in H; [|discriminate]
  end.
  destruct (free_func r); [|discriminate]. cbn [bind] in H. apply IH in H. rewrite H. reflexivity.
Qed.

Lemma empty_start L flat r q : rep L flat r q -> items q = [] -> start r <= 0.
Proof. intros R E. destruct (rp_lay _ _ _ _ R) as [(_ & -> & _)|(K & _)]; [lia|congruence]. Qed.

Lemma step_start L flat d r q o x r' ev q' : rep L flat r q -> L < 2^30 -> fair o -> stacked o -> start r <= 0 ->
  step L d [] r o = Ok (x, r') -> call q o x ev q' -> rep L (flat_after flat o) r' q' ->
  start r' <= 0 /\ (o = Flatten -> r' = r).
Proof.
  intros R HL F S0 K E C R'. unfold step in E. destruct (touch r); cbn [bind] in E; [|discriminate].
  destruct o; cbn [stacked] in S0; try contradiction; (split; [|intros ?; try discriminate]).
  - unfold put in E. destruct (size d r) as [s|]; cbn [bind] in E; [|discriminate]. destruct (arith32 d (s + 1)) as [s1|]; cbn [bind] in E; [|discriminate].
    destruct (reserve L d r s1) as [[b r1]|] eqn:Er; cbn [bind] in E; [|discriminate]. apply reserve_start in Er; auto.
    destruct b; [|inversion E; subst; auto].
    assert (start (if start r1 <? 0 then set_se r1 0 0 else r1) <= 0) as K2 by (destruct (start r1 <? 0); auto; cbn; lia).
    set (r2 := if start r1 <? 0 then set_se r1 0 0 else r1) in *. clearbody r2.
    destruct (wr (data r2) (end_ r2) (Some x0)); cbn [bind] in E; [|discriminate]. destruct (arith32 d (end_ r2 + 1)) as [e1|]; cbn [bind] in E; [|discriminate].
    destruct (crem e1 (alloc r2)); cbn [bind] in E; [|discriminate]. inversion E; subst. exact K2.
  - destruct (get_last d r) as [[y r1]|] eqn:G; cbn [bind] in E; [|discriminate]. inversion E; subst. eapply get_last_start; eauto.
  - destruct (drop_last d [] r n) as [[y r1]|] eqn:G; cbn [bind] in E; [|discriminate]. inversion E; subst.
    cbn [call] in C. destruct C as (keep & gone & Eq & Lg & _ & -> & _).
    unfold drop_last in G. rewrite (rep_size L flat d r q R HL) in G. cbn [bind] in G.
    destruct (n >? 0) eqn:E1; [|inversion G; subst; auto]. destruct (len (items q) >? 0) eqn:E2; [|inversion G; subst; auto].
    destruct (n >=? len (items q)) eqn:E3.
    + apply (empty_start _ _ _ _ R'). cbn [with_items items]. apply len_zero. unfold dropping in Lg. rewrite Eq, len_app in *. pose proof (len_nonneg keep). lia.
    + destruct (free_func r).
      * destruct (drop_last_loop d (Z.to_nat n) [] r) as [r1|] eqn:D; cbn [bind] in G; [|discriminate]. inversion G; subst.
        apply drop_last_loop_start in D. lia.
      * repeat match type of G with bind ?x _ = _ => destruct x; cbn [bind] in G; [|discriminate] end. inversion G; subst. exact K.
  - destruct C as (_ & _ & ->). apply (empty_start _ _ _ _ R'). reflexivity.
  - destruct (compact L d r) as [r1|] eqn:G; cbn [bind] in E; [|discriminate]. inversion E; subst. eapply compact_start; eauto.
  - destruct (reserve L d r n) as [[b r1]|] eqn:G; cbn [bind] in E; [|discriminate]. inversion E; subst. eapply reserve_start; eauto.
  - destruct (set_max_size d [] r n) as [r1|] eqn:G; cbn [bind] in E; [|discriminate]. inversion E; subst. unfold set_max_size in G.
    replace (n <? 0) with true in G by lia. destruct (negb (maxsiz r =? -1)); [|inversion G; subst; auto].
    destruct (size d r); cbn [bind] in G; [|discriminate]. cbn [andb Z.geb Z.compare bind] in G.
    destruct (touch r); cbn [bind] in G; [|discriminate]. inversion G; subst. exact K.
  - inversion E; subst; auto.
  - inversion E; subst; auto.
  - destruct (data_at d r i); cbn [bind] in E; [|discriminate]. inversion E; subst; auto.
  - destruct (size d r); cbn [bind] in E; [|discriminate]. inversion E; subst; auto.
  - destruct (can_put d r n); cbn [bind] in E; [|discriminate]. inversion E; subst; auto.
  - unfold flatten in E. destruct (size d r) as [n|]; cbn [bind] in E; [|discriminate]. destruct (n >? 0); [|inversion E; subst; auto].
    replace (start r >? 0) with false in E by lia. cbn [andb bind] in E. inversion E; subst; auto.
  - unfold flatten in E. destruct (size d r) as [n|]; cbn [bind] in E; [|discriminate]. destruct (n >? 0); [|inversion E; subst; auto].
    replace (start r >? 0) with false in E by lia. cbn [andb bind] in E. inversion E; subst; auto.
  - inversion E; subst; auto.
  - destruct (unref d [] r) as [r1|] eqn:G; cbn [bind] in E; [|discriminate]. inversion E; subst. unfold unref in G.
    destruct (ref_count (set_refs r (ref_count r - 1)) =? 0); [|inversion G; subst; auto].
    destruct (free_func (set_refs r (ref_count r - 1))).
    + destruct (size d (set_refs r (ref_count r - 1))); cbn [bind] in G; [|discriminate].
      destruct (unref_loop d _ 0 [] (set_refs r (ref_count r - 1))) as [r2|] eqn:U; cbn [bind] in G; [|discriminate]. apply unref_loop_start in U.
      destruct (gone r2); [discriminate|]. inversion G; subst. cbn [start set_gone set_refs] in *. lia.
    + cbn [bind] in G. destruct (gone _); [discriminate|]. inversion G; subst. exact K.
Qed.

Theorem C16_stack_partial : forall L d reserved max f r ops,
  0 <= L < 2^30 -> in_s32 max -> new_full L reserved max f = Ok r ->
  Forall fair ops -> owned 1 ops -> Forall stacked ops ->
  run L d r ops = Fail AllocAbort \/
  exists outs r' evs q', run L d r ops = Ok (outs, r') /\
    calls (new_dq max f) ops outs evs q' /\ freed r' = frees evs.
Proof.
  intros L d reserved max f r ops HL Hm Hn F O SO.
  destruct (all_runs L d reserved max f r ops HL Hm Hn F O) as [E|[(E & _)|E]]; auto. exfalso.
  destruct (new_rep L reserved max f r HL Hm Hn) as (R & _ & _).
  assert (start r <= 0) as K by (eapply empty_start; [exact R|reflexivity]).
  change 1 with (refs (new_dq max f)) in O. revert R K O E. generalize (new_dq max f). clear Hn. revert r.
  induction ops as [|o ops IH]; intros r q R K O E; [discriminate|].
  apply Forall_cons_iff in F, SO. destruct F as (F1 & F2). destruct SO as (S1 & S2). destruct O as (O1 & O2). cbn [run] in E.
  destruct (step_spec L false d r q o R ltac:(lia) F1 O1) as [(_ & Fl & _)|[(Es & _)|(x & r1 & ev & q1 & Es & C & Fr & Rf & R1 & _)]]; [discriminate| |].
  { rewrite Es in E. discriminate. }
  rewrite Es in E. cbn [bind] in E.
  assert (owned (refs q1) ops) as O3 by (rewrite Rf; destruct o; exact O2).
  destruct ops as [|o2 ops]; [discriminate|].
  assert (0 < refs q1) as P1 by (destruct O3; auto). specialize (R1 P1).
  destruct (step_start L false d r q o x r1 ev q1 R ltac:(lia) F1 S1 K Es C R1) as (K1 & K2).
  assert (rep L false r1 q1) as R2.
  { destruct o; cbn [flat_after] in R1; auto. rewrite (K2 eq_refl) in *. destruct C as (_ & _ & ->). exact R. }
  destruct (run L d r1 (o2 :: ops)) as [[? ?]|e] eqn:E3; cbn [bind] in E; [discriminate|]. inversion E; subst e.
  exact (IH F2 S2 r1 q1 R2 K1 O3 E3).
Qed.
Print Assumptions C16_stack_partial.

Example C16_example_stack :
  Forall stacked [Put 1; Put 2; Flatten; Put 3; GetLast; Flatten; Put 4; Flatten] /\ ~ tame false [Put 1; Put 2; Flatten; Put 3; GetLast; Flatten; Put 4; Flatten] /\
  exists r r', new_full 100 0 (-1) None = Ok r /\
  run 100 Strict r [Put 1; Put 2; Flatten; Put 3; GetLast; Flatten; Put 4; Flatten] =
    Ok ([OBool true; OBool true; OBlock (Some 0) 2; OBool true; OPtr 3; OBlock (Some 0) 2; OBool true; OBlock (Some 0) 3], r').
Proof.
  split; [repeat constructor|]. split; [cbn; intros H; decompose [and] H; discriminate|].
  eexists _, _. split; [reflexivity|]. vm_compute. reflexivity.
Qed.
