(* C21: free functions which use the ring while elements are dropped *)
From Verif Require Import Base RingModel RingSpec RingProofs RingProps RingCbSpec.
From Coq Require Import ZifyBool.
Ltac Zify.zify_post_hook ::= Z.div_mod_to_equations.

Lemma rep_behaves L d r q : L < 2^30 -> rep L false r q -> behaves L d r q.
Proof.
  intros HL R. split; [eapply rep_shows; eauto|]. intros ops F O T.
  destruct (run_spec L d HL ops false r q R F O) as [E|[(_ & K)|(outs & r3 & evs & q3 & E & C & Fr & _)]]; auto.
  - contradiction.
  - right. exists outs, r3, evs, q3. auto.
Qed.

(* a ring used by one client *)
Lemma used_rep L d reserved max f r ops outs r' :
  0 <= L < 2^30 -> in_s32 max -> new_full L reserved max f = Ok r ->
  Forall fair ops -> owned 1 ops -> 0 < left_ 1 ops -> ~ In Flatten ops -> run L d r ops = Ok (outs, r') ->
  exists evs q', calls (new_dq max f) ops outs evs q' /\ rep L false r' q' /\ 0 < refs q'.
Proof.
  intros HL Hm Hn F O Lf NF Run.
  destruct (new_rep L reserved max f r HL Hm Hn) as (R & _).
  clear Hn. revert R O Lf Run. change 1 with (refs (new_dq max f)). generalize (new_dq max f) as q.
  revert r outs F NF. induction ops as [|o ops IH]; intros r outs F NF q R O Lf Run.
  - cbn in Run. inversion Run; subst. exists [], q. split; [constructor|auto].
  - inversion F; subst. destruct O as (O1 & O2). cbn [run] in Run.
    destruct (step_spec L false d r q o R ltac:(lia) ltac:(auto) O1) as [(_ & ? & _)|[(E & _)|(x & r1 & ev & q1 & E & Cl & _ & Rf & R1 & _)]];
      [discriminate|rewrite E in Run; discriminate|]. rewrite E in Run. cbn [bind] in Run.
    destruct (run L d r1 ops) as [[l r3]|] eqn:E3; [|discriminate]. cbn [bind] in Run. inversion Run; subst.
    assert (left_ (refs q1) ops = left_ (refs q) (o :: ops)) as O4 by (rewrite Rf; destruct o; reflexivity).
    assert (owned (refs q1) ops) as O3 by (rewrite Rf; destruct o; exact O2).
    assert (0 < refs q1) as P1.
    { destruct ops; [change (refs q1 = left_ (refs q) [o]) in O4; rewrite O4; exact Lf|destruct O3; auto]. }
    destruct (IH r1 l ltac:(auto)) with (q := q1) as (evs & q' & C & R' & P'); auto.
    + intros K. apply NF. right. exact K.
    + specialize (R1 P1). destruct o; try exact R1. exfalso. apply NF. left. reflexivity.
    + lia.
    + exists (ev ++ evs), q'. split; [econstructor; eauto|auto].
Qed.

(* the front of the ring stays *)
Definition rear (o : op) : Prop := match o with PutFront _ => False | _ => True end.
Definition any (o : op) : Prop := True.

(* one call which removes nothing; the number of references does not matter *)
Lemma calm_step L d r q o : rep L false r q -> L < 2^30 -> calm o ->
  step L d [] r o = Fail AllocAbort \/
  exists x r' ev q', step L d [] r o = Ok (x, r') /\ call q o x ev q' /\ freed r' = freed r /\
    refs q' = refs_after (refs q) o /\ rep L false r' q'.
Proof.
  intros R HL Hc. unfold step, touch. rewrite (rp_gone _ _ _ _ R). cbn [bind].
  destruct o; cbn [calm refs_after] in *; try contradiction.
  - destruct (put_spec L false d r q x R HL) as [(? & _)|[(E & _)|(r' & F & _ & _ & D)]]; [discriminate|left; rewrite E; reflexivity|right].
    destruct D as [(E & -> & D1 & D2)|(E & D)]; rewrite E; cbn [bind]; eexists _, _, _, _; (split; [reflexivity|]).
    + split; [right; split; [reflexivity|]; split; [reflexivity|]; split; [reflexivity|lia]|]. auto.
    + split; [left; split; [reflexivity|]; split; [reflexivity|]; reflexivity|]. auto.
  - destruct (put_front_spec L false d r q x R HL) as [(? & _)|[(E & _)|(r' & F & _ & _ & D)]]; [discriminate|left; rewrite E; reflexivity|right].
    destruct D as [(E & -> & D1 & D2)|(E & D)]; rewrite E; cbn [bind]; eexists _, _, _, _; (split; [reflexivity|]).
    + split; [right; split; [reflexivity|]; split; [reflexivity|]; split; [reflexivity|lia]|]. auto.
    + split; [left; split; [reflexivity|]; split; [reflexivity|]; reflexivity|]. auto.
  - right. destruct (compact_spec L false d r q R HL) as (r' & D & R' & F & _). rewrite D. cbn [bind].
    eexists _, _, [], q. split; [reflexivity|]. split; [cbn; auto|]. auto.
  - destruct (reserve_spec L false d r q n R HL) as [(E & _)|(r' & R' & F & D)]; [left; rewrite E; reflexivity|right].
    destruct D as [(E & -> & D1 & D2)|(E & D)]; rewrite E; cbn [bind]; eexists _, _, [], q; (split; [reflexivity|]).
    + split; [cbn; split; auto; eexists; split; [reflexivity|]; lia|]. auto.
    + split; [cbn; split; auto; eexists; split; [reflexivity|]; auto|]. auto.
  - right. eexists _, _, [], q. split; [reflexivity|]. split; [cbn; rewrite (rp_max _ _ _ _ R); auto|]. auto.
  - right. rewrite (data_at_spec L false d r q i R HL Hc). cbn [bind].
    eexists _, _, [], q. split; [reflexivity|]. split; [cbn; auto|]. auto.
  - right. rewrite (rep_size L false d r q R HL). cbn [bind].
    eexists _, _, [], q. split; [reflexivity|]. split; [cbn; auto|]. auto.
  - right. rewrite (can_put_spec L false d r q n R HL Hc). cbn [bind].
    eexists _, _, [], q. split; [reflexivity|]. split; [cbn; auto|]. auto.
  - right. eexists _, _, [], _. split; [reflexivity|]. split; [cbn; auto|]. split; [reflexivity|]. split; [reflexivity|].
    unfold ring_ref. rewrite (rp_refs _ _ _ _ R). apply rep_refs. exact R.
Qed.

Lemma perform_spec L d ok p : L < 2^30 -> calm_prog ok p -> forall r q, rep L false r q ->
  perform L d p r = Fail AllocAbort \/
  exists r' q', perform L d p r = Ok r' /\ performs q p q' /\ rep L false r' q' /\ refs q <= refs q' /\
    fn q' = fn q /\ bound q' = bound q /\ len (items q) <= len (items q') /\ freed r' = freed r /\
    ((forall o, ok o -> rear o) -> exists l, items q' = items q ++ l).
Proof.
  intros HL. induction p as [|o k IH]; intros C r q R.
  - right. exists r, q. split; [reflexivity|]. split; [constructor|]. repeat (split; [auto; try lia|]).
    exists []. rewrite app_nil_r. reflexivity.
  - inversion C as [|o' k' C1 C2 C3]; subst. cbn [perform].
    destruct (calm_step L d r q o R HL C1) as [E|(x & r1 & ev & q1 & E & Cl & Fr & Rf & R2)]; [rewrite E; left; reflexivity|].
    rewrite E. cbn [bind].
    assert (refs q <= refs q1) as P1 by (rewrite Rf; destruct o; cbn; try contradiction; lia).
    assert (fn q1 = fn q /\ bound q1 = bound q /\ len (items q) <= len (items q1) /\
      (rear o -> exists l, items q1 = items q ++ l)) as (K1 & K2 & K3 & K5).
    { clear - Cl C1. destruct o; cbn [calm call rear] in *; try contradiction;
        repeat match goal with H : _ /\ _ |- _ => destruct H | H : _ \/ _ |- _ => destruct H end; subst;
        simp; rewrite ?len_app, ?len_cons; change (@len Z []) with 0;
        repeat (split; [auto; try lia|]); try contradiction; try (intros _; eauto; exists []; rewrite app_nil_r; reflexivity). }
    destruct (IH x (C3 x) r1 q1 R2) as [A|(r2 & q2 & A & B1 & B2 & B3 & B4 & B5 & B6 & B7 & B8)]; [left; exact A|right].
    exists r2, q2. split; [exact A|]. split; [econstructor; eauto|]. split; auto. split; [lia|].
    split; [congruence|]. split; [congruence|]. split; [lia|]. split; [congruence|].
    intros Hok. destruct (B8 Hok) as (l2 & E2). destruct (K5 (Hok _ C2)) as (l1 & E1).
    exists (l1 ++ l2). rewrite E2, E1, app_assoc. reflexivity.
Qed.

Lemma call_free_spec L d ok f x ps r q : L < 2^30 -> Forall (calm_prog ok) ps -> rep L false r q ->
  call_free f x (map (perform L d) ps) r = Fail AllocAbort \/
  exists r' q', call_free f x (map (perform L d) ps) r = Ok (map (perform L d) (tl ps), r') /\
    performs q (first_of ps) q' /\ rep L false r' q' /\ refs q <= refs q' /\
    fn q' = fn q /\ bound q' = bound q /\ len (items q) <= len (items q') /\ freed r' = freed r ++ [(f, x)] /\
    ((forall o, ok o -> rear o) -> exists l, items q' = items q ++ l).
Proof.
  intros HL F R. pose proof (rep_log L false r q f x R) as R2. unfold call_free. destruct ps as [|p ps]; cbn [map tl first_of].
  - right. eexists _, q. split; [reflexivity|]. split; [constructor|]. repeat (split; [auto; try lia|]).
    exists []. rewrite app_nil_r. reflexivity.
  - inversion F; subst.
    destruct (perform_spec L d ok p HL ltac:(auto) _ _ R2) as [E|(r' & q' & E & K)]; rewrite E; cbn [bind]; [left; reflexivity|right].
    exists r', q'. split; [reflexivity|]. exact K.
Qed.

Lemma Forall_tl {A} (P : A -> Prop) l : Forall P l -> Forall P (tl l).
Proof. destruct l; auto. intros H. inversion H; auto. Qed.

Lemma drop_last_loop_cb L d f : L < 2^30 -> forall n ps r q, Forall (calm_prog any) ps -> rep L false r q -> 0 < refs q ->
  fn q = Some f -> Z.of_nat n < len (items q) ->
  drop_last_loop d n (map (perform L d) ps) r = Fail AllocAbort \/
  exists r' q' fr, drop_last_loop d n (map (perform L d) ps) r = Ok r' /\ drops_last n q ps fr q' /\
    rep L false r' q' /\ 0 < refs q' /\ freed r' = freed r ++ map (pair f) fr.
Proof.
  intros HL. induction n as [|n IH]; intros ps r q Fp R P Hf Hn.
  - right. exists r, q, []. split; [reflexivity|]. split; [constructor|]. rewrite app_nil_r. auto.
  - destruct (exists_last (l := items q)) as (l & x & E). { intros E. rewrite E in Hn. cbn in Hn. lia. }
    pose proof (rp_lay _ _ _ _ R) as Lay. rewrite E in Lay. pose proof (rp_alloc _ _ _ _ R) as HA.
    rewrite E, len_app in Hn. change (len [x]) with 1 in Hn.
    destruct (layout_back _ _ _ _ _ _ Lay) as (He & Hs & C & He' & _ & T).
    destruct T as (_ & T). { intros ->. cbn in Hn. lia. }
    cbn [drop_last_loop]. unfold touch. rewrite (rp_gone _ _ _ _ R). cbn [bind].
    rewrite arith_ok by lia. cbn [bind]. rewrite arith_ok by lia. cbn [bind].
    rewrite crem_wrap by lia. cbn [bind].
    replace (end_ r + alloc r - 1 - alloc r) with (end_ r - 1) by lia.
    set (e' := if end_ r + alloc r - 1 <? alloc r then end_ r + alloc r - 1 else end_ r - 1) in *.
    rewrite C. cbn [bind]. cbv zeta.
    assert (rep L false (set_se r (start r) e') (with_items q l)) as R1.
    { destruct R as [R1 R2 R3 R4 R5 R6 R7 R8 R9]. constructor; simp; auto. }
    change (free_func (set_se r (start r) e')) with (free_func r). rewrite (rp_fn _ _ _ _ R), Hf.
    destruct (call_free_spec L d any f x ps _ _ HL Fp R1) as [A|(r2 & q2 & A & B1 & B2 & B3 & B4 & B5 & B6 & B7 & _)];
      rewrite A; cbn [bind]; [left; reflexivity|].
    cbn [with_items items fn bound refs] in *.
    destruct (IH (tl ps) r2 q2 (Forall_tl _ _ Fp) B2 ltac:(lia) ltac:(congruence) ltac:(lia)) as [D|(r3 & q3 & fr & D & D1 & D2 & D3 & D4)];
      [left; exact D|right].
    exists r3, q3, (x :: fr). split; [exact D|]. split; [econstructor; eauto|]. split; auto. split; auto.
    rewrite D4, B7. simp. rewrite <- app_assoc. reflexivity.
Qed.

Lemma drop_loop_cb L d f : L < 2^30 -> forall n ps r q, Forall (calm_prog rear) ps -> rep L false r q -> 0 < refs q ->
  fn q = Some f -> Z.of_nat n < len (items q) ->
  drop_loop d n (map (perform L d) ps) r = Fail AllocAbort \/
  exists r' q' fr, drop_loop d n (map (perform L d) ps) r = Ok r' /\ drops_first n q ps fr q' /\
    rep L false r' q' /\ 0 < refs q' /\ freed r' = freed r ++ map (pair f) fr.
Proof.
  intros HL. induction n as [|n IH]; intros ps r q Fp R P Hf Hn.
  - right. exists r, q, []. split; [reflexivity|]. split; [constructor|]. rewrite app_nil_r. auto.
  - destruct (items q) as [|x l] eqn:E. { cbn in Hn. lia. }
    pose proof (rp_lay _ _ _ _ R) as Lay. rewrite E in Lay.
    rewrite len_cons in Hn.
    destruct (layout_front _ _ _ _ _ _ Lay) as (C & _ & _).
    cbn [drop_loop]. unfold touch. rewrite (rp_gone _ _ _ _ R). cbn [bind]. rewrite C. cbn [bind].
    rewrite (rp_fn _ _ _ _ R), Hf.
    destruct (call_free_spec L d rear f x ps _ _ HL Fp R) as [A|(r2 & q2 & A & B1 & B2 & B3 & B4 & B5 & B6 & B7 & B8)];
      rewrite A; cbn [bind]; [left; reflexivity|].
    destruct (B8 ltac:(auto)) as (l2 & E2). rewrite E in E2. cbn [app] in E2.
    rewrite (rp_gone _ _ _ _ B2). cbn [bind].
    pose proof (rp_lay _ _ _ _ B2) as Lay2. rewrite E2 in Lay2. pose proof (rp_alloc _ _ _ _ B2) as HA.
    destruct (layout_front _ _ _ _ _ _ Lay2) as (_ & Hs & T).
    destruct (l ++ l2) as [|y t] eqn:E3.
    { apply app_eq_nil in E3. destruct E3 as (-> & _). cbn in Hn. lia. }
    destruct T as (_ & _ & T3 & T4).
    rewrite arith_ok by lia. cbn [bind]. rewrite crem_wrap by lia. cbn [bind].
    replace (if start r2 + 1 <? alloc r2 then start r2 + 1 else start r2 + 1 - alloc r2)
      with (if start r2 + 1 <? alloc r2 then start r2 + 1 else 0) by (destruct (start r2 + 1 <? alloc r2) eqn:Q; lia).
    set (s' := if start r2 + 1 <? alloc r2 then start r2 + 1 else 0) in *.
    assert (rep L false (set_se r2 s' (end_ r2)) (with_items q2 (y :: t))) as R3.
    { destruct B2 as [R1 R2 R3 R4 R5 R6 R7 R8 R9]. constructor; simp; auto. }
    rewrite E in B6. rewrite E2, !len_cons in B6. 
    destruct (IH (tl ps) _ _ (Forall_tl _ _ Fp) R3) as [D|(r3 & q3 & fr & D & D1 & D2 & D3 & D4)].
    + simp. lia.
    + simp. congruence.
    + simp. rewrite len_cons. lia.
    + left. exact D.
    + right. exists r3, q3, (x :: fr). split; [exact D|]. split; [econstructor; eauto|]. split; auto. split; auto.
      rewrite D4. simp. rewrite B7, <- app_assoc. reflexivity.
Qed.

Lemma unref_loop_cb L d f : L < 2^30 -> forall rest ps r q done_ more, Forall (calm_prog rear) ps -> rep L false r q ->
  fn q = Some f -> items q = done_ ++ rest ++ more ->
  unref_loop d (length rest) (len done_) (map (perform L d) ps) r = Fail AllocAbort \/
  exists r' q', unref_loop d (length rest) (len done_) (map (perform L d) ps) r = Ok r' /\
    rep L false r' q' /\ freed r' = freed r ++ map (pair f) rest.
Proof.
  intros HL. induction rest as [|x rest IH]; intros ps r q done_ more Fp R Hf E.
  - right. exists r, q. split; [reflexivity|]. rewrite app_nil_r. auto.
  - pose proof (rp_alloc _ _ _ _ R) as HA. pose proof (rp_lay _ _ _ _ R) as Lay.
    destruct Lay as [(E' & _)|(Hne & Hs & Hn & He & Hc)]; [rewrite E' in E; destruct done_; discriminate|].
    assert (nth_error (items q) (Z.to_nat (len done_)) = Some x) as Hx.
    { rewrite E, nth_error_app2 by (unfold len; lia).
      replace (Z.to_nat (len done_) - length done_)%nat with O by (unfold len; lia). reflexivity. }
    pose proof (len_nonneg done_). pose proof (nth_error_bound _ _ _ (len_nonneg done_) Hx) as Hb.
    specialize (Hc _ _ (len_nonneg done_) Hx). unfold at_ in Hc.
    cbn [length unref_loop]. unfold touch. rewrite (rp_gone _ _ _ _ R). cbn [bind].
    rewrite arith_ok by lia. cbn [bind]. rewrite crem_wrap by lia. cbn [bind].
    rewrite Hc. cbn [bind]. rewrite (rp_fn _ _ _ _ R), Hf.
    destruct (call_free_spec L d rear f x ps _ _ HL Fp R) as [A|(r2 & q2 & A & B1 & B2 & B3 & B4 & B5 & B6 & B7 & B8)];
      rewrite A; cbn [bind]; [left; reflexivity|].
    destruct (B8 ltac:(auto)) as (l2 & E2).
    destruct (IH (tl ps) r2 q2 (done_ ++ [x]) (more ++ l2) (Forall_tl _ _ Fp) B2) as [D|(r3 & q3 & D & D2 & D4)].
    + congruence.
    + rewrite E2, E. rewrite <- !app_assoc. reflexivity.
    + left. rewrite len_app in D. exact D.
    + right. exists r3, q3. split; [rewrite len_app in D; exact D|]. split; auto.
      rewrite D4, B7, <- app_assoc. reflexivity.
Qed.

(* gutil_ring_drop_last with fewer elements than there are: if the free function, whatever it does
   in response to what it sees, only looks at the ring and adds elements to it, then at each of its calls
   the ring consists of the elements other than the one being released, the elements released are the last
   ones at those times, and the ring remains usable.
   Missing: functions which remove elements (refuted below) *)
Theorem C21_drop_last_partial : forall L d reserved max f r ops outs r' n ps,
  0 <= L < 2^30 -> in_s32 max -> new_full L reserved max f = Ok r ->
  Forall fair ops -> owned 1 ops -> 0 < left_ 1 ops -> ~ In Flatten ops -> run L d r ops = Ok (outs, r') ->
  Forall (calm_prog any) ps ->
  exists evs q, calls (new_dq max f) ops outs evs q /\
  forall g, fn q = Some g -> 0 < n < len (items q) ->
    step L d (map (perform L d) ps) r' (DropLast n) = Fail AllocAbort \/
    exists r2 q2 fr, step L d (map (perform L d) ps) r' (DropLast n) = Ok (OInt n, r2) /\
      drops_last (Z.to_nat n) q ps fr q2 /\ freed r2 = freed r' ++ map (pair g) fr /\
      0 < refs q2 /\ behaves L d r2 q2.
Proof.
  intros L d reserved max f r ops outs r' n ps HL Hm Hn F O Lf NF Run Fp.
  destruct (used_rep L d reserved max f r ops outs r' HL Hm Hn F O Lf NF Run) as (evs & q & C & R & P).
  exists evs, q. split; auto. intros g Hg Hs.
  unfold step, touch. rewrite (rp_gone _ _ _ _ R). cbn [bind]. unfold drop_last.
  replace (n >? 0) with true by lia. rewrite (rep_size L false d r' q R) by lia. cbn [bind].
  replace (len (items q) >? 0) with true by lia. replace (n >=? len (items q)) with false by lia.
  rewrite (rp_fn _ _ _ _ R), Hg.
  destruct (drop_last_loop_cb L d g ltac:(lia) (Z.to_nat n) ps r' q Fp R P Hg ltac:(lia)) as [D|(r2 & q2 & fr & D & D1 & D2 & D3 & D4)];
    rewrite D; cbn [bind]; [left; reflexivity|right].
  exists r2, q2, fr. split; [reflexivity|]. split; [exact D1|]. split; [exact D4|]. split; [exact D3|]. apply rep_behaves; auto. lia.
Qed.
Print Assumptions C21_drop_last_partial.

(* gutil_ring_drop: the free function may look at the ring and add elements at the end; it still
   sees the element which it is to release. *)
Theorem C21_drop_partial : forall L d reserved max f r ops outs r' n ps,
  0 <= L < 2^30 -> in_s32 max -> new_full L reserved max f = Ok r ->
  Forall fair ops -> owned 1 ops -> 0 < left_ 1 ops -> ~ In Flatten ops -> run L d r ops = Ok (outs, r') ->
  Forall (calm_prog rear) ps ->
  exists evs q, calls (new_dq max f) ops outs evs q /\
  forall g, fn q = Some g -> 0 < n < len (items q) ->
    step L d (map (perform L d) ps) r' (Drop n) = Fail AllocAbort \/
    exists r2 q2 fr, step L d (map (perform L d) ps) r' (Drop n) = Ok (OInt n, r2) /\
      drops_first (Z.to_nat n) q ps fr q2 /\ freed r2 = freed r' ++ map (pair g) fr /\
      0 < refs q2 /\ behaves L d r2 q2.
Proof.
  intros L d reserved max f r ops outs r' n ps HL Hm Hn F O Lf NF Run Fp.
  destruct (used_rep L d reserved max f r ops outs r' HL Hm Hn F O Lf NF Run) as (evs & q & C & R & P).
  exists evs, q. split; auto. intros g Hg Hs.
  unfold step, touch. rewrite (rp_gone _ _ _ _ R). cbn [bind]. unfold drop.
  replace (n >? 0) with true by lia. rewrite (rep_size L false d r' q R) by lia. cbn [bind].
  replace (len (items q) >? 0) with true by lia. replace (n >=? len (items q)) with false by lia.
  rewrite (rp_fn _ _ _ _ R), Hg.
  destruct (drop_loop_cb L d g ltac:(lia) (Z.to_nat n) ps r' q Fp R P Hg ltac:(lia)) as [D|(r2 & q2 & fr & D & D1 & D2 & D3 & D4)];
    rewrite D; cbn [bind]; [left; reflexivity|right].
  exists r2, q2, fr. split; [reflexivity|]. split; [exact D1|]. split; [exact D4|]. split; [exact D3|]. apply rep_behaves; auto. lia.
Qed.
Print Assumptions C21_drop_partial.

(* gutil_ring_set_max_size with a positive limit below the number of elements: as above; the old
   limit still applies while the free function is called *)
Theorem C21_shrink_partial : forall L d reserved max f r ops outs r' m ps,
  0 <= L < 2^30 -> in_s32 max -> new_full L reserved max f = Ok r ->
  Forall fair ops -> owned 1 ops -> 0 < left_ 1 ops -> ~ In Flatten ops -> run L d r ops = Ok (outs, r') ->
  Forall (calm_prog rear) ps ->
  exists evs q, calls (new_dq max f) ops outs evs q /\
  forall g, fn q = Some g -> 0 < m < len (items q) -> m <> bound q ->
    step L d (map (perform L d) ps) r' (SetMaxSize m) = Fail AllocAbort \/
    exists r2 q2 fr, step L d (map (perform L d) ps) r' (SetMaxSize m) = Ok (ONone, r2) /\
      drops_first (Z.to_nat (len (items q) - m)) q ps fr q2 /\ freed r2 = freed r' ++ map (pair g) fr /\
      0 < refs q2 /\ behaves L d r2 (mkDq (items q2) m (fn q2) (refs q2)).
Proof.
  intros L d reserved max f r ops outs r' m ps HL Hm Hn F O Lf NF Run Fp.
  destruct (used_rep L d reserved max f r ops outs r' HL Hm Hn F O Lf NF Run) as (evs & q & C & R & P).
  exists evs, q. split; auto. intros g Hg Hs Hb.
  unfold step, touch. rewrite (rp_gone _ _ _ _ R). cbn [bind]. unfold set_max_size. cbv zeta.
  replace (m <? 0) with false by lia. rewrite (rp_max _ _ _ _ R).
  replace (bound q =? m) with false by lia. cbn [negb].
  rewrite (rep_size L false d r' q R) by lia. cbn [bind].
  replace ((m >=? 0) && (len (items q) >? m)) with true by lia.
  unfold drop. replace (len (items q) - m >? 0) with true by lia. rewrite (rep_size L false d r' q R) by lia. cbn [bind].
  replace (len (items q) >? 0) with true by lia. replace (len (items q) - m >=? len (items q)) with false by lia.
  rewrite (rp_fn _ _ _ _ R), Hg.
  destruct (drop_loop_cb L d g ltac:(lia) (Z.to_nat (len (items q) - m)) ps r' q Fp R P Hg ltac:(lia)) as [D|(r2 & q2 & fr & D & D1 & D2 & D3 & D4)];
    rewrite D; cbn [bind]; [left; reflexivity|right].
  unfold touch. rewrite (rp_gone _ _ _ _ D2). cbn [bind].
  eexists _, q2, fr. split; [reflexivity|]. split; [exact D1|]. split; [exact D4|]. split; [exact D3|]. apply rep_behaves; [lia|].
  pose proof (rp_alloc _ _ _ _ R) as HA. pose proof (layout_le _ _ _ _ _ (rp_lay _ _ _ _ R) ltac:(lia)) as HN.
  destruct D2 as [R1 R2 R3 R4 R5 R6 R7 R8 R9]. constructor; simp; auto. lia.
Qed.
Print Assumptions C21_shrink_partial.

(* gutil_ring_unref of the last reference: even if the free function looks at the ring and adds
   elements at the end, exactly the elements which were in the ring before are released, in their order;
   those which the function adds are not (refuted below). *)
Theorem C21_unref_partial : forall L d reserved max f r ops outs r' ps,
  0 <= L < 2^30 -> in_s32 max -> new_full L reserved max f = Ok r ->
  Forall fair ops -> owned 1 ops -> left_ 1 ops = 1 -> ~ In Flatten ops -> run L d r ops = Ok (outs, r') ->
  Forall (calm_prog rear) ps ->
  exists evs q, calls (new_dq max f) ops outs evs q /\
  forall g, fn q = Some g ->
    step L d (map (perform L d) ps) r' Unref = Fail AllocAbort \/
    exists r2, step L d (map (perform L d) ps) r' Unref = Ok (ONone, r2) /\
      freed r2 = freed r' ++ map (pair g) (items q) /\
      forall o, step L d [] r2 o = Fail UseAfterFree.
Proof.
  intros L d reserved max f r ops outs r' ps HL Hm Hn F O Lf NF Run Fp.
  destruct (used_rep L d reserved max f r ops outs r' HL Hm Hn F O ltac:(lia) NF Run) as (evs & q & C & R & P).
  exists evs, q. split; auto. intros g Hg.
  destruct (good_run L d reserved max f r ops outs r' HL Hm Hn F O Run) as (evs' & q' & C' & _ & Rf & R' & _).
  assert (refs q = 1) as P1.
  { destruct (R' ltac:(lia)) as (fl & R''). rewrite <- (rp_refs _ _ _ _ R), (rp_refs _ _ _ _ R''). lia. }
  unfold step, touch. rewrite (rp_gone _ _ _ _ R). cbn [bind]. unfold unref. cbv zeta.
  rewrite (rp_refs _ _ _ _ R), P1. pose proof (rep_refs L false r' q 0 R) as R0.
  change (1 - 1) with 0. change (ref_count (set_refs r' 0) =? 0) with true. cbv iota.
  rewrite (rp_fn _ _ _ _ R0). cbn [fn]. rewrite Hg, (rep_size L false d _ _ R0) by lia. cbn [bind items].
  replace (Z.to_nat (len (items q))) with (length (items q)) by (unfold len; lia).
  rewrite Hg in R0.
  destruct (unref_loop_cb L d g ltac:(lia) (items q) ps _ _ [] [] Fp R0 eq_refl) as [D|(r2 & q2 & D & D2 & D4)].
  - cbn [items]. rewrite app_nil_r. reflexivity.
  - change (len []) with 0 in D. rewrite D. left. reflexivity.
  - change (len []) with 0 in D. rewrite D. cbn [bind]. rewrite (rp_gone _ _ _ _ D2). right.
    eexists _. split; [reflexivity|]. split; [exact D4|]. intros o. reflexivity.
Qed.
Print Assumptions C21_unref_partial.

(* what is added while the ring is being freed is lost *)
Theorem C21_unref_refuted :
  exists r r1 outs r2, new_full 100 4 (-1) (Some 5) = Ok r /\
    run 100 Strict r [Put 1; Put 2] = Ok (outs, r1) /\
    step 100 Strict [perform 100 Strict (Do (Put 7) (fun _ => Done))] r1 Unref = Ok (ONone, r2) /\
    gone r2 = true /\ freed r2 = [(5, 1); (5, 2)].
Proof.
  eexists _, _, _, _. split; [reflexivity|]. split; [vm_compute; reflexivity|].
  split; [vm_compute; reflexivity|]. split; vm_compute; reflexivity.
Qed.
Print Assumptions C21_unref_refuted.

(* The free function may not remove elements: dropping the last two of 1, 2, 3 with a function which
   clears the ring releases all of them, and one of them again *)
Theorem C21_drop_last_refuted :
  exists r r1 outs r2, new_full 100 4 (-1) (Some 5) = Ok r /\
    run 100 Strict r [Put 1; Put 2; Put 3] = Ok (outs, r1) /\
    step 100 Strict [play 100 Strict (Script [(Clear, [])])] r1 (DropLast 2) = Ok (OInt 2, r2) /\
    freed r2 = [(5, 3); (5, 1); (5, 2); (5, 3)].
Proof.
  eexists _, _, _, _. split; [reflexivity|]. split; [vm_compute; reflexivity|].
  split; vm_compute; reflexivity.
Qed.
Print Assumptions C21_drop_last_refuted.

(* Adding at the front while the first element is being dropped: 1 is released and stays in the
   ring, while the new element 7 is neither released nor in the ring *)
Theorem C21_drop_front_refuted :
  exists r r1 outs r2, new_full 100 4 (-1) (Some 5) = Ok r /\
    run 100 Strict r [Put 1; Put 2; Put 3] = Ok (outs, r1) /\
    step 100 Strict [perform 100 Strict (Do (PutFront 7) (fun _ => Done))] r1 (Drop 1) = Ok (OInt 1, r2) /\
    freed r2 = [(5, 1)] /\
    size Strict r2 = Ok 3 /\ data_at Strict r2 0 = Ok 1 /\ data_at Strict r2 1 = Ok 2 /\ data_at Strict r2 2 = Ok 3.
Proof.
  eexists _, _, _, _. split; [reflexivity|]. split; [vm_compute; reflexivity|].
  split; [vm_compute; reflexivity|]. repeat (split; [vm_compute; reflexivity|]). vm_compute. reflexivity.
Qed.
Print Assumptions C21_drop_front_refuted.

(* a function which puts back ten times the number of elements which it sees *)
Definition c21_refill : prog :=
  Do Size (fun x => match x with OInt n => Do (Put (10 * n)) (fun _ => Done) | _ => Done end).
Lemma c21_calm : calm_prog rear c21_refill.
Proof.
  constructor; [exact I|exact I|]. intros x. destruct x; try constructor.
  - exact I.
  - exact I.
  - intros y. constructor.
Qed.
Example C21_example_drop : Forall (calm_prog rear) [c21_refill; c21_refill] /\
  exists r r1 outs r2 r3, new_full 100 4 (-1) (Some 5) = Ok r /\
    run 100 Strict r [Put 1; Put 2; Put 3] = Ok (outs, r1) /\
    step 100 Strict (map (perform 100 Strict) [c21_refill; c21_refill]) r1 (Drop 2) = Ok (OInt 2, r2) /\
    freed r2 = [(5, 1); (5, 2)] /\ run 100 Strict r2 [Get; Get; Get] = Ok ([OPtr 3; OPtr 30; OPtr 30], r3).
Proof.
  split; [constructor; [apply c21_calm|constructor; [apply c21_calm|constructor]]|].
  eexists _, _, _, _, _. split; [reflexivity|]. split; [vm_compute; reflexivity|].
  split; [vm_compute; reflexivity|]. split; vm_compute; reflexivity.
Qed.
Example C21_example_drop_last : exists r r1 outs r2 r3, new_full 100 4 (-1) (Some 5) = Ok r /\
    run 100 Strict r [Put 1; Put 2; Put 3] = Ok (outs, r1) /\
    step 100 Strict (map (perform 100 Strict) [c21_refill; c21_refill]) r1 (DropLast 2) = Ok (OInt 2, r2) /\
    freed r2 = [(5, 3); (5, 20)] /\ run 100 Strict r2 [Get; Get; Get] = Ok ([OPtr 1; OPtr 2; OPtr 20], r3).
Proof.
  eexists _, _, _, _, _. split; [reflexivity|]. split; [vm_compute; reflexivity|].
  split; [vm_compute; reflexivity|]. split; vm_compute; reflexivity.
Qed.
