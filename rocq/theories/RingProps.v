(* Properties C15-C21: the ring *)
From Verif Require Import Base RingModel RingSpec RingProofs.
From Coq Require Import ZifyBool Permutation.
Ltac Zify.zify_post_hook ::= Z.div_mod_to_equations.

Lemma new_rep L reserved max f r : 0 <= L < 2^30 -> in_s32 max -> new_full L reserved max f = Ok r ->
  rep L false r (new_dq max f) /\ freed r = [] /\ alloc r = reserved.
Proof.
  intros HL Hm H. unfold new_full in H. unfold in_s32 in Hm.
  assert (-1 <= (if max <? 0 then -1 else max) < 2^31) by (destruct (max <? 0) eqn:E; lia).
  destruct (reserved =? 0) eqn:E; cbn [negb] in H.
  - inversion H; subst. split; [|split; [reflexivity|cbn; lia]].
    constructor; cbn; auto; try lia. left. auto.
  - destruct (g_new_cases L reserved) as [(Hr & G)|(Hr & G)]; rewrite G in H; [|discriminate].
    cbn [bind] in H. inversion H; subst. split; [|split; reflexivity].
    constructor; cbn [ref_count alloc maxsiz start end_ data free_func gone new_dq items bound fn refs];
      rewrite ?len_repeat; auto; try lia. left. auto.
Qed.

Lemma call_bound q o x ev q' : call q o x ev q' ->
  bound q' = match o with SetMaxSize m => if m <? 0 then -1 else m | _ => bound q end.
Proof.
  destruct o; cbn; intros H.
  1,2: destruct H as [(_ & _ & ->)|(_ & _ & -> & _)]; reflexivity.
  1: destruct (items q); destruct H as (_ & _ & ->); reflexivity.
  1: destruct H as [(_ & _ & _ & ->)|(t & y & _ & _ & _ & ->)]; reflexivity.
  2: destruct H as (k & g & _ & _ & _ & -> & _); reflexivity.
  all: try (destruct H as (_ & _ & ->); reflexivity).
  destruct H as (_ & H). destruct (refs q =? 1); destruct H as (_ & ->); reflexivity.
Qed.

Lemma call_len q o x ev q' : call q o x ev q' -> len (items q') <= len (items q) + 1.
Proof.
  pose proof (len_nonneg (items q)) as HP.
  destruct o; cbn [call]; intros H.
  1,2: destruct H as [(_ & _ & ->)|(_ & _ & -> & _)]; cbn [items with_items]; rewrite ?len_app, ?len_cons; change (len (@nil Z)) with 0; lia.
  1: destruct (items q) as [|y l] eqn:E; destruct H as (_ & _ & ->); cbn [items with_items]; rewrite ?E, ?len_cons in *; lia.
  1: destruct H as [(_ & _ & _ & ->)|(t & y & E & _ & _ & ->)]; [lia|]; rewrite E, len_app in *; cbn [items with_items]; change (len [y]) with 1 in *; lia.
  2: destruct H as (k & g & E & _ & _ & -> & _); rewrite E, len_app in *; cbn [items with_items]; pose proof (len_nonneg g); lia.
  all: try (destruct H as (_ & _ & ->); cbn [items with_items]; unfold len in *; rewrite ?skipn_length; cbn [length]; lia).
  destruct H as (_ & H). destruct (refs q =? 1); destruct H as (_ & ->); cbn [items]; cbn; lia.
Qed.

Lemma call_gone q o x ev q' : call q o x ev q' -> 0 < refs q -> refs q' <= 0 -> items q' = [].
Proof.
  destruct o; cbn [call]; intros H P K.
  1,2: destruct H as [(_ & _ & ->)|(_ & _ & -> & _)]; cbn in K; lia.
  1: destruct (items q); destruct H as (_ & _ & ->); cbn in K; lia.
  1: destruct H as [(_ & _ & _ & ->)|(t & y & _ & _ & _ & ->)]; cbn in K; lia.
  2: destruct H as (k & g & _ & _ & _ & -> & _); cbn in K; lia.
  all: try (destruct H as (_ & _ & ->); cbn in K; lia).
  destruct H as (_ & H). destruct (refs q =? 1) eqn:E; destruct H as (_ & ->); auto. cbn in K. lia.
Qed.

Definition capped (r : ring) (q : deque) : Prop := 0 <= bound q -> alloc r <= bound q.

Lemma tame_step flat o ops : tame flat (o :: ops) <-> (adds o -> flat = false) /\ tame (flat_after flat o) ops.
Proof. destruct o; cbn; intuition. Qed.

(* all runs *)
Lemma run_spec L d : L < 2^30 -> forall ops flat r q,
  rep L flat r q -> Forall fair ops -> owned (refs q) ops ->
  run L d r ops = Fail AllocAbort \/
  (run L d r ops = Fail OobWrite /\ ~ tame flat ops) \/
  exists outs r' evs q', run L d r ops = Ok (outs, r') /\ calls q ops outs evs q' /\
    freed r' = freed r ++ frees evs /\ refs q' = left_ (refs q) ops /\
    (0 < refs q' -> exists flat', rep L flat' r' q') /\
    (capped r q -> raising (bound q) ops -> capped r' q').
Proof.
  intros HL. induction ops as [|o ops IH]; intros flat r q R F O.
  - right. right. exists [], r, [], q. split; [reflexivity|]. split; [constructor|]. split; [rewrite app_nil_r; auto|]. eauto 7.
  - apply Forall_cons_iff in F. destruct F as (F1 & F2). destruct O as (O1 & O2).
    cbn [run]. rewrite tame_step.
    destruct (step_spec L flat d r q o R HL F1 O1) as [(A & Fl & E)|[(E & _)|(x & r1 & ev & q1 & E & C & Fr & Rf & R1 & _ & Cap)]].
    { right. left. rewrite E. split; [reflexivity|]. intros (H & _). rewrite (H A) in Fl. discriminate. }
    { left. rewrite E. reflexivity. }
    rewrite E. cbn [bind].
    assert (owned (refs q1) ops) as O3 by (rewrite Rf; destruct o; exact O2).
    assert (left_ (refs q1) ops = left_ (refs q) (o :: ops)) as O4 by (rewrite Rf; destruct o; reflexivity).
    assert (capped r q -> raising (bound q) (o :: ops) -> capped r1 q1 /\ raising (bound q1) ops) as Cap1.
    { intros K1 K2. unfold capped in *. rewrite (call_bound _ _ _ _ _ C).
      destruct o; cbn [raising] in K2; try (split; [intros K; specialize (K1 K); specialize (Cap K); lia|exact K2]).
      destruct K2 as (K2 & K3). split; auto. destruct (n <? 0) eqn:En; lia. }
    destruct ops as [|o2 ops].
    { right. right. exists [x], r1, (ev ++ []), q1. split; [reflexivity|].
      split; [econstructor; eauto; constructor|]. split; [rewrite app_nil_r; auto|]. split; auto. split; [eauto|]. apply Cap1. }
    assert (0 < refs q1) as P1 by (destruct O3; auto).
    destruct (IH (flat_after flat o) r1 q1 (R1 P1) F2 O3) as [E2|[(E2 & T2)|(outs & r' & evs & q' & E2 & C2 & Fr2 & Rf2 & R2 & Cap2)]].
    { left. rewrite E2. reflexivity. }
    { right. left. rewrite E2. split; [reflexivity|]. tauto. }
    right. right. rewrite E2. cbn [bind]. exists (x :: outs), r', (ev ++ evs), q'. split; [reflexivity|].
    split; [econstructor; eauto|]. split; [|split; [congruence|split; [auto|]]].
    { rewrite Fr2, Fr, frees_app, app_assoc. reflexivity. }
    intros K1 K2. destruct (Cap1 K1 K2). auto.
Qed.

Lemma run_total L d k : L < 2^30 -> 2 * k <= L -> forall ops flat r q,
  rep L flat r q -> Forall fair ops -> owned (refs q) ops ->
  alloc r <= 2 * k -> len (items q) + len ops <= k -> (forall n, In (Reserve n) ops -> n <= k) ->
  run L d r ops <> Fail AllocAbort.
Proof.
  intros HL Hk. induction ops as [|o ops IH]; intros flat r q R F O HA HN HR; [discriminate|].
  apply Forall_cons_iff in F. destruct F as (F1 & F2). destruct O as (O1 & O2).
  rewrite len_cons in HN. pose proof (len_nonneg ops). pose proof (len_nonneg (items q)).
  assert (asked q o <= k) as Ask.
  { destruct o; cbn [asked]; try lia. apply HR. left. reflexivity. }
  cbn [run].
  destruct (step_spec L flat d r q o R HL F1 O1) as [(_ & _ & E)|[(E & K1 & K2)|(x & r1 & ev & q1 & E & C & Fr & Rf & R1 & Al & Cap)]].
  { rewrite E. discriminate. }
  { lia. }
  rewrite E. cbn [bind].
  assert (owned (refs q1) ops) as O3 by (rewrite Rf; destruct o; exact O2).
  destruct ops as [|o2 ops]; [discriminate|].
  assert (0 < refs q1) as P1 by (destruct O3; auto).
  pose proof (call_len _ _ _ _ _ C).
  specialize (IH (flat_after flat o) r1 q1 (R1 P1) F2 O3 ltac:(lia) ltac:(lia)).
  destruct (run L d r1 (o2 :: ops)) as [[l r2]|f]; cbn [bind]; [discriminate|].
  intros K. apply IH; [intros n Hn; apply HR; right; exact Hn|]. congruence.
Qed.

Lemma calls_gone q ops outs evs q' : calls q ops outs evs q' -> 0 < refs q -> refs q' <= 0 -> items q' = [].
Proof.
  induction 1 as [|q o r ev q1 os rs evs q2 P C CS IH]; [lia|]. intros _ K.
  destruct (Z.lt_ge_cases 0 (refs q1)); auto. inversion CS; subst; [|lia].
  eapply call_gone; eauto.
Qed.

Lemma rep_shows L flat d r q : rep L flat r q -> L < 2^30 -> shows d r (items q).
Proof.
  intros R HL. split; [eapply rep_size; eauto|]. intros i Hi. eapply data_at_spec; eauto.
Qed.

(* runs from a new ring *)
Lemma all_runs L d reserved max f r ops :
  0 <= L < 2^30 -> in_s32 max -> new_full L reserved max f = Ok r ->
  Forall fair ops -> owned 1 ops ->
  run L d r ops = Fail AllocAbort \/
  (run L d r ops = Fail OobWrite /\ ~ tame false ops) \/
  exists outs r' evs q', run L d r ops = Ok (outs, r') /\
    calls (new_dq max f) ops outs evs q' /\ freed r' = frees evs.
Proof.
  intros HL Hm Hn F O.
  destruct (new_rep L reserved max f r HL Hm Hn) as (R & Fr & _).
  destruct (run_spec L d ltac:(lia) ops false r _ R F O) as [E|[E|(outs & r' & evs & q' & E & C & Fr' & _)]]; auto.
  right. right. exists outs, r', evs, q'. rewrite Fr in Fr'. auto.
Qed.

(* a run that succeeded *)
Lemma good_run L d reserved max f r ops outs r' :
  0 <= L < 2^30 -> in_s32 max -> new_full L reserved max f = Ok r ->
  Forall fair ops -> owned 1 ops -> run L d r ops = Ok (outs, r') ->
  exists evs q', calls (new_dq max f) ops outs evs q' /\ freed r' = frees evs /\ refs q' = left_ 1 ops /\
    (0 < refs q' -> exists flat', rep L flat' r' q') /\
    (max < 0 \/ reserved <= max -> raising (if max <? 0 then -1 else max) ops -> capped r' q').
Proof.
  intros HL Hm Hn F O Run.
  destruct (new_rep L reserved max f r HL Hm Hn) as (R & Fr & Al).
  destruct (run_spec L d ltac:(lia) ops false r _ R F O) as [E|[(E & _)|(outs1 & r1 & evs & q' & E & C & Fr' & Rf & R' & Cap)]]; try congruence.
  rewrite Run in E. inversion E; subst outs1 r1. rewrite Fr in Fr'. exists evs, q'. repeat (split; auto).
  intros H. apply Cap. unfold capped. cbn [bound new_dq]. destruct (max <? 0) eqn:Em; lia.
Qed.

(* ------------------------------------------------------------------ C15 *)
(* [L] is the number of cells the allocator can deliver in one block; beyond it the process
   aborts. It is assumed to be below 2^30 (8 GB of pointers). *)
Theorem C15_ring_is_deque : forall L d reserved max f r ops,
  0 <= L < 2^30 -> in_s32 max -> new_full L reserved max f = Ok r ->
  Forall fair ops -> owned 1 ops -> tame false ops ->
  run L d r ops = Fail AllocAbort \/
  exists outs r' evs q', run L d r ops = Ok (outs, r') /\
    calls (new_dq max f) ops outs evs q' /\ freed r' = frees evs.
Proof.
  intros L d reserved max f r ops HL Hm Hn F O T.
  destruct (all_runs L d reserved max f r ops HL Hm Hn F O) as [E|[(_ & E)|E]]; auto. contradiction.
Qed.
Print Assumptions C15_ring_is_deque.

(* in particular for all sequences without gutil_ring_flatten *)
Lemma no_flatten_tame ops : ~ In Flatten ops -> tame false ops.
Proof.
  induction ops as [|o ops IH]; intros H; [exact I|].
  assert (tame false ops) by (apply IH; intros K; apply H; right; exact K).
  destruct o; cbn; auto. exfalso. apply H. left. reflexivity.
Qed.

(* The process does not abort if the memory suffices for twice the demand *)
Theorem C15_ring_no_abort : forall L d k reserved max f ops,
  0 <= 2 * k <= L -> L < 2^30 -> 0 <= reserved <= 2 * k -> in_s32 max ->
  Forall fair ops -> owned 1 ops -> ~ In Flatten ops -> demand k ops ->
  exists r outs r', new_full L reserved max f = Ok r /\ run L d r ops = Ok (outs, r').
Proof.
  intros L d k reserved max f ops HL1 HL2 Hr Hm F O NF (D1 & D2).
  assert (exists r, new_full L reserved max f = Ok r) as (r & Hn).
  { unfold new_full. destruct (reserved =? 0) eqn:E; cbn [negb]; [eauto|]. rewrite g_new_ok by lia. cbn [bind]. eauto. }
  exists r. destruct (new_rep L reserved max f r ltac:(lia) Hm Hn) as (R & Fr & Al).
  destruct (C15_ring_is_deque L d reserved max f r ops ltac:(lia) Hm Hn F O (no_flatten_tame ops NF))
    as [E|(outs & r' & evs & q' & E & _)]; [|eauto 6].
  exfalso. revert E. apply (run_total L d k HL2 ltac:(lia) ops false r _ R); auto. lia.
Qed.
Print Assumptions C15_ring_no_abort.

Ltac all_fair := repeat (apply Forall_cons; [cbn [fair tracked]; unfold in_s32; first [exact I|lia|congruence]|]); apply Forall_nil.

Definition c15_ops : list op :=
  [Put 1; Put 2; Put 3; Get; PutFront 4; Put 5; Put 6; DataAt 0; DropLast 1; GetLast;
   Reserve 9; Compact; Drop 1; Size; SetMaxSize 1; CanPut 1; Ref; Unref; Clear; Get; Unref].
Example C15_example :
  Forall fair c15_ops /\ owned 1 c15_ops /\ ~ In Flatten c15_ops /\ demand 21 c15_ops /\
  exists r r', new_full 100 2 (-1) (Some 7) = Ok r /\
    run 100 Strict r c15_ops =
    Ok ([OBool true; OBool true; OBool true; OPtr 1; OBool true; OBool true; OBool true; OPtr 4; OInt 1;
         OPtr 5; OBool true; ONone; OInt 1; OInt 2; ONone; OBool false; ONone; ONone; ONone; OPtr 0; ONone], r') /\
    freed r' = [(7, 6); (7, 4); (7, 2); (7, 3)].
Proof.
  split; [all_fair|].
  split; [vm_compute; repeat (split; [reflexivity|]); exact I|]. split; [intros H; repeat (destruct H as [H|H]; [discriminate|]); exact H|].
  split; [split; [cbn; lia|intros n Hn; repeat (destruct Hn as [Hn|Hn]; [inversion Hn; lia|]); contradiction]|].
  eexists _, _. split; [reflexivity|]. split; vm_compute; reflexivity.
Qed.

(* ------------------------------------------------------------------ C16 *)
(* False: gutil_ring_flatten shrinks the block but not the recorded capacity *)
Theorem C16_ring_memory_safety_refuted :
  exists reserved ops r, new_full 100 reserved (-1) None = Ok r /\ owned 1 ops /\ Forall fair ops /\
    run 100 Strict r ops = Fail OobWrite.
Proof.
  eexists 4, [Put 1; Put 2; Put 3; Put 4; Get; Get; Get; Put 5; Flatten; Put 6], _.
  split; [reflexivity|]. split; [vm_compute; repeat (split; [reflexivity|]); exact I|]. split; [all_fair|]. vm_compute. reflexivity.
Qed.
Print Assumptions C16_ring_memory_safety_refuted.

(* The write out of bounds happens only if an element is added after gutil_ring_flatten without
   gutil_ring_compact in between; apart from it the only possible fault is the abort of the
   allocator: no read out of bounds or of an uninitialised cell, no overflow, no division by zero,
   no call of a NULL function, no use after free. Missing: adding elements after flatten. *)
Theorem C16_ring_memory_safety_partial : forall L d reserved max f r ops e,
  0 <= L < 2^30 -> in_s32 max -> new_full L reserved max f = Ok r ->
  Forall fair ops -> owned 1 ops ->
  run L d r ops = Fail e -> e = AllocAbort \/ (e = OobWrite /\ ~ tame false ops).
Proof.
  intros L d reserved max f r ops e HL Hm Hn F O E.
  destruct (all_runs L d reserved max f r ops HL Hm Hn F O) as [E2|[(E2 & E3)|(o & r' & _ & _ & E2 & _)]];
    rewrite E in E2; inversion E2; auto.
Qed.
Print Assumptions C16_ring_memory_safety_partial.

Example C16_example : tame false [Put 1; Put 2; Get; Flatten; Get; Compact; Put 3] /\
  exists r r', new_full 10 2 (-1) None = Ok r /\
  run 10 Strict r [Put 1; Put 2; Get; Flatten; Get; Compact; Put 3] =
  Ok ([OBool true; OBool true; OPtr 1; OBlock (Some 0) 1; OPtr 2; ONone; OBool true], r').
Proof. split; [cbn; auto|]. eexists _, _. split; [reflexivity|]. vm_compute. reflexivity. Qed.

(* ------------------------------------------------------------------ C17 *)
(* False: reserved memory can be filled beyond the maximum *)
Theorem C17_ring_size_limit_refuted :
  exists reserved max ops r outs r' n, new_full 100 reserved max None = Ok r /\ 0 <= max /\
    owned 1 ops /\ Forall fair ops /\ (forall m, ~ In (SetMaxSize m) ops) /\
    run 100 Strict r ops = Ok (outs, r') /\ size Strict r' = Ok n /\ max < n.
Proof.
  eexists 4, 1, [Put 1; Put 2], _, _, _, 2. split; [reflexivity|]. split; [lia|].
  split; [vm_compute; repeat (split; [reflexivity|]); exact I|]. split; [all_fair|]. split; [intros m [H|[H|H]]; try discriminate; contradiction|].
  split; [vm_compute; reflexivity|]. split; [reflexivity|lia].
Qed.
Print Assumptions C17_ring_size_limit_refuted.

(* Setting the same limit again does not help *)
Example C17_set_max_size_keeps_excess :
  exists r r', new_full 100 4 1 None = Ok r /\
  run 100 Strict r [Put 1; Put 2; SetMaxSize 1; Size] = Ok ([OBool true; OBool true; ONone; OInt 2], r').
Proof. eexists _, _. split; [reflexivity|]. vm_compute. reflexivity. Qed.

(* Holds if the initial reservation does not exceed the limit and the limit is not lowered.
   Missing: larger reservations, lowering the limit. *)
Theorem C17_ring_size_limit_partial : forall L d reserved max f r ops outs r' n,
  0 <= L < 2^30 -> in_s32 max -> (max < 0 \/ reserved <= max) -> new_full L reserved max f = Ok r ->
  Forall fair ops -> owned 1 ops -> 0 < left_ 1 ops -> raising (if max <? 0 then -1 else max) ops ->
  run L d r ops = Ok (outs, r') -> size d r' = Ok n -> 0 <= maxsiz r' -> n <= maxsiz r'.
Proof.
  intros L d reserved max f r ops outs r' n HL Hm Hres Hn F O Lf Rs Run Sz Hb.
  destruct (good_run L d reserved max f r ops outs r' HL Hm Hn F O Run) as (evs & q' & C & Fr & Rf & R' & Cap).
  destruct (R' ltac:(lia)) as (fl & R2). rewrite (rep_size L fl d r' q' R2 ltac:(lia)) in Sz. inversion Sz; subst n.
  rewrite (rp_max _ _ _ _ R2) in *. specialize (Cap Hres Rs Hb).
  pose proof (layout_le _ _ _ _ _ (rp_lay _ _ _ _ R2) ltac:(pose proof (rp_alloc _ _ _ _ R2); lia)). lia.
Qed.
Print Assumptions C17_ring_size_limit_partial.

(* and a changed limit is enforced at once *)
Theorem C17_new_limit_enforced : forall L d reserved max f r ops outs r' m,
  0 <= L < 2^30 -> in_s32 max -> new_full L reserved max f = Ok r ->
  Forall fair ops -> owned 1 ops -> 0 < left_ 1 ops -> run L d r ops = Ok (outs, r') ->
  0 <= m < 2^31 -> maxsiz r' <> m ->
  exists r2 n, step L d [] r' (SetMaxSize m) = Ok (ONone, r2) /\ maxsiz r2 = m /\ size d r2 = Ok n /\ n <= m.
Proof.
  intros L d reserved max f r ops outs r' m HL Hm Hn F O Lf Run Hm2 Hne.
  destruct (good_run L d reserved max f r ops outs r' HL Hm Hn F O Run) as (evs & q' & C & Fr & Rf & R' & Cap).
  destruct (R' ltac:(lia)) as (fl & R2).
  destruct (step_spec L fl d r' q' (SetMaxSize m) R2 ltac:(lia)) as [([] & _)|[(_ & _ & K)|(x & r2 & ev & q2 & E & C2 & _ & Rf2 & R3 & _)]].
  { cbn. unfold in_s32. lia. } { lia. } { pose proof (rp_alloc _ _ _ _ R2). cbn [asked] in K. lia. }
  specialize (R3 ltac:(cbn in Rf2; lia)). destruct C2 as (-> & _ & Eq).
  exists r2, (len (items q2)). split; auto. rewrite (rp_max _ _ _ _ R3).
  split; [|split; [eapply rep_size; eauto; lia|]]; rewrite Eq; cbn [bound items];
    rewrite (rp_max _ _ _ _ R2) in Hne; replace (m <? 0) with false in * by lia; auto.
  replace (m =? bound q') with false by lia. cbn [orb].
  unfold dropping, len. rewrite skipn_length. unfold len. replace (m <? 0) with false by lia. lia.
Qed.
Print Assumptions C17_new_limit_enforced.

Example C17_example : raising 1 [Put 1; Put 2; SetMaxSize 3; Put 3; Put 4; Put 5] /\
  exists r r', new_full 100 1 1 None = Ok r /\
  run 100 Strict r [Put 1; Put 2; SetMaxSize 3; Put 3; Put 4; Put 5] =
    Ok ([OBool true; OBool false; ONone; OBool true; OBool true; OBool false], r') /\
  size Strict r' = Ok 3 /\ maxsiz r' = 3.
Proof. split; [cbn; lia|]. eexists _, _. split; [reflexivity|]. split; [vm_compute; reflexivity|]. split; reflexivity. Qed.

(* ------------------------------------------------------------------ C18 *)
(* False, for the same reason *)
Theorem C18_can_put_predicts_put_refuted :
  exists reserved max r outs r', new_full 100 reserved max None = Ok r /\
    run 100 Strict r [Put 1; CanPut 1; Put 2] = Ok (outs, r') /\
    outs = [OBool true; OBool false; OBool true].
Proof.
  eexists 2, 1, _, _, _. split; [reflexivity|]. split; vm_compute; reflexivity.
Qed.
Print Assumptions C18_can_put_predicts_put_refuted.

(* gutil_ring_can_put overflows when asked for INT_MAX more elements *)
Example C18_can_put_overflow :
  exists r, new_full 100 0 5 None = Ok r /\ run 100 Strict r [Put 1; CanPut (2^31 - 1)] = Fail SignedOverflow /\
    exists r', run 100 Wrap r [Put 1; CanPut (2^31 - 1)] = Ok ([OBool true; OBool true], r').
Proof. eexists. split; [reflexivity|]. split; [vm_compute; reflexivity|]. eexists. vm_compute. reflexivity. Qed.

Definition putting (x : Z) (front : bool) : op := if front then PutFront x else Put x.

(* If gutil_ring_can_put(ring,1) is TRUE then putting succeeds *)
Theorem C18_can_put_sufficient : forall L d reserved max f r ops outs r' x front b r2,
  0 <= L < 2^30 -> in_s32 max -> new_full L reserved max f = Ok r ->
  Forall fair ops -> owned 1 ops -> 0 < left_ 1 ops -> run L d r ops = Ok (outs, r') ->
  can_put d r' 1 = Ok true -> step L d [] r' (putting x front) = Ok (OBool b, r2) -> b = true.
Proof.
  intros L d reserved max f r ops outs r' x front b r2 HL Hm Hn F O Lf Run CP St.
  destruct (good_run L d reserved max f r ops outs r' HL Hm Hn F O Run) as (evs & q' & C & Fr & Rf & R' & Cap).
  destruct (R' ltac:(lia)) as (fl & R2).
  rewrite (can_put_spec L fl d r' q' 1 R2 ltac:(lia) ltac:(lia)) in CP. inversion CP as [CP1].
  assert (fair (putting x front)) as Hf by (destruct front; exact I).
  destruct (step_spec L fl d r' q' _ R2 ltac:(lia) Hf ltac:(lia)) as [(_ & _ & K)|[(K & _)|(y & r3 & ev & q2 & E & C2 & _)]]; try congruence.
  rewrite St in E. inversion E; subst y r3.
  destruct front; cbn in C2; destruct C2 as [(K & _)|(K & _ & _ & K2)]; inversion K; auto; lia.
Qed.
Print Assumptions C18_can_put_sufficient.

(* A failing put changes nothing *)
Theorem C18_failed_put_changes_nothing : forall L d reserved max f r ops outs r' x front r2,
  0 <= L < 2^30 -> in_s32 max -> new_full L reserved max f = Ok r ->
  Forall fair ops -> owned 1 ops -> 0 < left_ 1 ops -> run L d r ops = Ok (outs, r') ->
  step L d [] r' (putting x front) = Ok (OBool false, r2) -> r2 = r'.
Proof.
  intros L d reserved max f r ops outs r' x front r2 HL Hm Hn F O Lf Run St.
  destruct (good_run L d reserved max f r ops outs r' HL Hm Hn F O Run) as (evs & q' & C & Fr & Rf & R' & Cap).
  destruct (R' ltac:(lia)) as (fl & R2).
  unfold step, touch in St. rewrite (rp_gone _ _ _ _ R2) in St. cbn [bind] in St.
  destruct front; cbn [putting] in St.
  - destruct (put_front_spec L fl d r' q' x R2 ltac:(lia)) as [(_ & E)|[(E & _)|(r3 & _ & _ & _ & [(E & -> & _)|(E & _)])]];
      rewrite E in St; cbn [bind] in St; inversion St; auto.
  - destruct (put_spec L fl d r' q' x R2 ltac:(lia)) as [(_ & E)|[(E & _)|(r3 & _ & _ & _ & [(E & -> & _)|(E & _)])]];
      rewrite E in St; cbn [bind] in St; inversion St; auto.
Qed.
Print Assumptions C18_failed_put_changes_nothing.

(* Equivalence under the conditions of C17_ring_size_limit_partial.
   Missing: larger reservations, lowering the limit. *)
Theorem C18_can_put_predicts_put_partial : forall L d reserved max f r ops outs r' x front b r2,
  0 <= L < 2^30 -> in_s32 max -> (max < 0 \/ reserved <= max) -> new_full L reserved max f = Ok r ->
  Forall fair ops -> owned 1 ops -> 0 < left_ 1 ops -> raising (if max <? 0 then -1 else max) ops ->
  run L d r ops = Ok (outs, r') ->
  step L d [] r' (putting x front) = Ok (OBool b, r2) -> can_put d r' 1 = Ok b.
Proof.
  intros L d reserved max f r ops outs r' x front b r2 HL Hm Hres Hn F O Lf Rs Run St.
  destruct b eqn:Eb.
  - assert (run L d r (ops ++ [putting x front]) = Ok (outs ++ [OBool true], r2)) as Run2.
    { clear - Run St. revert r outs Run. induction ops as [|o ops IH]; intros r outs Run; cbn [run app] in *.
      - inversion Run; subst. rewrite St. reflexivity.
      - destruct (step L d [] r o) as [[x1 r1]|]; [|discriminate]. cbn [bind] in *.
        destruct (run L d r1 ops) as [[l r3]|] eqn:E; [|discriminate]. cbn [bind] in *. inversion Run; subst.
        rewrite (IH _ _ E). reflexivity. }
    assert (Forall fair (ops ++ [putting x front])) as F2.
    { apply Forall_app. split; auto. repeat constructor. destruct front; exact I. }
    assert (owned 1 (ops ++ [putting x front]) /\ left_ 1 (ops ++ [putting x front]) = left_ 1 ops) as (O2 & Lf2).
    { clear - O Lf. revert O Lf. generalize 1 as n. induction ops as [|o ops IH]; intros n O Lf.
      - cbn in *. destruct front; cbn; auto.
      - cbn [owned app] in *. destruct O as (O1 & O2).
        destruct o; cbn [left_ app] in *; (destruct (IH _ O2 Lf); auto). }
    assert (raising (if max <? 0 then -1 else max) (ops ++ [putting x front])) as Rs2.
    { clear - Rs. revert Rs. generalize (if max <? 0 then -1 else max). induction ops as [|o ops IH]; intros m Rs.
      - destruct front; exact I.
      - destruct o; cbn [raising app] in *; auto. destruct Rs; auto. }
    destruct (good_run L d reserved max f r ops outs r' HL Hm Hn F O Run) as (evs & q' & C & Fr & Rf & R' & Cap).
    destruct (R' ltac:(lia)) as (fl & R2).
    destruct (good_run L d reserved max f r _ _ r2 HL Hm Hn F2 O2 Run2) as (evs2 & q2 & C2 & _ & Rf2 & R2' & Cap2).
    destruct (R2' ltac:(lia)) as (fl2 & R22). specialize (Cap2 Hres Rs2). unfold capped in Cap2.
    rewrite (can_put_spec L fl d r' q' 1 R2 ltac:(lia) ltac:(lia)). f_equal.
    pose proof (layout_le _ _ _ _ _ (rp_lay _ _ _ _ R22) ltac:(pose proof (rp_alloc _ _ _ _ R22); lia)) as HN.
    assert (bound q2 = bound q' /\ len (items q2) = len (items q') + 1) as (B1 & B2).
    { assert (fair (putting x front)) as Hf by (destruct front; exact I).
      destruct (step_spec L fl d r' q' _ R2 ltac:(lia) Hf ltac:(lia)) as [(_ & _ & K)|[(K & _)|(y & r3 & ev & q3 & E & C3 & _ & Rf3 & R3 & _)]]; try congruence.
      rewrite St in E. inversion E; subst y r3.
      specialize (R3 ltac:(rewrite Rf3; destruct front; cbn; lia)).
      rewrite <- (rp_max _ _ _ _ R22), (rp_max _ _ _ _ R3).
      assert (len (items q2) = len (items q3)) as ->.
      { pose proof (rep_size _ _ d _ _ R22 ltac:(lia)) as K1. rewrite (rep_size _ _ d _ _ R3 ltac:(lia)) in K1. congruence. }
      destruct front; cbn in C3; destruct C3 as [(_ & _ & ->)|(K & _)]; try discriminate; cbn [items bound with_items];
        rewrite ?len_app, ?len_cons; change (len [x]) with 1; split; auto; lia. }
    lia.
  - destruct (good_run L d reserved max f r ops outs r' HL Hm Hn F O Run) as (evs & q' & C & Fr & Rf & R' & Cap).
    destruct (R' ltac:(lia)) as (fl & R2).
    rewrite (can_put_spec L fl d r' q' 1 R2 ltac:(lia) ltac:(lia)). f_equal.
    destruct ((bound q' <? 0) || (len (items q') + 1 <=? bound q')) eqn:E; auto.
    enough (false = true) by congruence.
    eapply (C18_can_put_sufficient L d reserved max f r ops outs r' x front false r2); eauto.
    rewrite (can_put_spec L fl d r' q' 1 R2 ltac:(lia) ltac:(lia)). congruence.
Qed.
Print Assumptions C18_can_put_predicts_put_partial.

Example C18_example : exists r r', new_full 100 1 2 None = Ok r /\
  run 100 Strict r [Put 1; CanPut 1; PutFront 2; CanPut 1; Put 3; Size] =
    Ok ([OBool true; OBool true; OBool true; OBool false; OBool false; OInt 2], r').
Proof. eexists _, _. split; [reflexivity|]. vm_compute. reflexivity. Qed.

(* ------------------------------------------------------------------ C19 *)
Lemma snd_removed q f l : fn q = Some f -> map snd (frees (removed q l)) = l.
Proof.
  intros H. unfold removed. rewrite H. induction l as [|x l IH]; cbn; [reflexivity|]. f_equal. exact IH.
Qed.

Definition held (q : deque) : Prop := fn q <> None /\ Forall (fun x => x <> 0) (items q).

Lemma perm_swap3 (a b c d : list Z) : Permutation (a ++ b) (c ++ d) -> Permutation (a ++ b) (d ++ c).
Proof. intros H. rewrite H. apply Permutation_app_comm. Qed.

Lemma call_conserves q o x ev q' : call q o x ev q' -> tracked o -> held q ->
  Permutation (items q ++ accepted [o] [x]) (items q' ++ taken [o] [x] ++ map snd (frees ev)) /\ held q'.
Proof.
  intros C T (Hf & Hi). destruct (fn q) as [f|] eqn:Ef; [|congruence]. clear Hf.
  assert (forall k, Permutation (items q ++ []) (skipn k (items q) ++ [] ++ map snd (frees (removed q (firstn k (items q)))))) as SK.
  { intros k. rewrite (snd_removed q f _ Ef), app_nil_r. cbn [app]. rewrite <- (firstn_skipn k (items q)) at 1.
    apply Permutation_app_comm. }
  assert (forall k, Forall (fun x => x <> 0) (skipn k (items q))) as SF.
  { intros k. rewrite <- (firstn_skipn k (items q)) in Hi. apply Forall_app in Hi. tauto. }
  assert (Permutation (items q ++ []) (items q ++ [] ++ map snd (frees [])) /\ held q) as SAME.
  { split; [apply Permutation_refl|]. split; [congruence|auto]. }
  destruct o; cbn [call accepted taken tracked] in *.
  - destruct C as [(-> & -> & ->)|(-> & -> & -> & _)]; [|exact SAME].
    cbn [items with_items fn frees flat_map map app accepted taken]. split; [rewrite app_nil_r; apply Permutation_refl|].
    split; [cbn; congruence|]. cbn. apply Forall_app. auto.
  - destruct C as [(-> & -> & ->)|(-> & -> & -> & _)]; [|exact SAME].
    cbn [items with_items fn frees flat_map map app accepted taken]. split.
    + rewrite app_nil_r. apply Permutation_sym, (Permutation_cons_append (items q) x0).
    + split; [cbn; congruence|]. cbn. auto.
  - destruct (items q) as [|y t] eqn:E; destruct C as (-> & -> & ->).
    + cbn. rewrite E. exact SAME.
    + inversion Hi; subst. replace (y =? 0) with false by lia. cbn. split.
      * rewrite app_nil_r. apply Permutation_cons_append.
      * split; cbn; auto; congruence.
  - destruct C as [(E & -> & -> & ->)|(t & y & E & -> & -> & ->)].
    + cbn. exact SAME.
    + rewrite E in Hi. apply Forall_app in Hi. destruct Hi as (Hi1 & Hi2). inversion Hi2; subst.
      replace (y =? 0) with false by lia. rewrite E. cbn. split.
      * rewrite app_nil_r. apply Permutation_refl.
      * split; cbn; auto; congruence.
  - destruct C as (-> & -> & ->). cbn [items with_items]. split; [apply SK|]. split; cbn; auto; congruence.
  - destruct C as (k & g & E & _ & -> & -> & ->). cbn [items with_items]. rewrite (snd_removed q f _ Ef), app_nil_r. rewrite E.
    rewrite E in Hi. apply Forall_app in Hi. split; [|split; cbn; [congruence|tauto]].
    apply Permutation_app_head. destruct (len k =? 0); [apply Permutation_refl|apply Permutation_rev].
  - destruct C as (-> & -> & ->). cbn [items with_items]. rewrite (snd_removed q f _ Ef), app_nil_r.
    split; [apply Permutation_refl|]. split; cbn; auto; congruence.
  - destruct C as (-> & -> & ->). exact SAME.
  - destruct C as (_ & -> & ->). destruct x; exact SAME.
  - destruct C as (-> & -> & ->). cbn [items fn]. split; [apply SK|]. split; cbn; auto; congruence.
  - destruct C as (-> & -> & ->). exact SAME.
  - destruct C as (-> & -> & ->). split; [apply Permutation_refl|]. split; cbn; auto.
  - destruct C as (-> & -> & ->). exact SAME.
  - destruct C as (-> & -> & ->). exact SAME.
  - destruct C as (-> & -> & ->). exact SAME.
  - destruct C as (_ & -> & ->). destruct x; exact SAME.
  - destruct C as (-> & -> & ->). split; [apply Permutation_refl|]. split; cbn; auto; congruence.
  - destruct C as (-> & C). destruct (refs q =? 1); destruct C as (-> & ->).
    + change (match fn q with Some f => map (EFree f) (items q) | None => map ELost (items q) end) with (removed q (items q)).
      rewrite (snd_removed q f _ Ef), app_nil_r. split; [apply Permutation_refl|]. split; cbn; auto; congruence.
    + split; [apply Permutation_refl|]. split; cbn; auto; congruence.
Qed.

Lemma accepted_cons o os x xs : accepted (o :: os) (x :: xs) = accepted [o] [x] ++ accepted os xs.
Proof. destruct o; cbn; auto; destruct x as [|[]| | |]; auto. Qed.
Lemma taken_cons o os x xs : taken (o :: os) (x :: xs) = taken [o] [x] ++ taken os xs.
Proof. destruct o; cbn; auto; destruct x as [| | |p|]; auto; destruct (p =? 0); auto. Qed.

Lemma calls_conserve q ops outs evs q' : calls q ops outs evs q' -> Forall tracked ops -> held q ->
  Permutation (items q ++ accepted ops outs) (items q' ++ taken ops outs ++ map snd (frees evs)).
Proof.
  induction 1 as [|q o x ev q1 os rs evs q2 P C CS IH]; intros T Hq; [cbn; apply Permutation_refl|].
  inversion T; subst. destruct (call_conserves _ _ _ _ _ C) as (P1 & Hq1); auto. specialize (IH ltac:(auto) Hq1).
  rewrite accepted_cons, taken_cons, frees_app, map_app.
  rewrite app_assoc, P1.
  (* (i1 ++ t1 ++ f1) ++ acc ~ i2 ++ (t1 ++ t) ++ f1 ++ f *)
  transitivity ((items q1 ++ accepted os rs) ++ (taken [o] [x] ++ map snd (frees ev))).
  { rewrite <- !app_assoc. apply Permutation_app_head. rewrite app_assoc. apply Permutation_app_comm. }
  rewrite IH. rewrite <- !app_assoc. apply Permutation_app_head.
  rewrite (Permutation_app_comm (taken os rs)). rewrite <- !app_assoc.
  rewrite (Permutation_app_comm (map snd (frees evs))). rewrite <- !app_assoc.
  apply Permutation_app_head. rewrite (Permutation_app_comm (map snd (frees ev))). rewrite <- !app_assoc.
  apply Permutation_app_head. apply Permutation_app_comm.
Qed.

Theorem C19_ring_ownership : forall L d reserved max f r ops outs r',
  0 <= L < 2^30 -> in_s32 max -> new_full L reserved max (Some f) = Ok r ->
  Forall fair ops -> owned 1 ops -> Forall tracked ops -> run L d r ops = Ok (outs, r') ->
  exists c, Permutation (accepted ops outs) (c ++ taken ops outs ++ map snd (freed r')) /\
    (0 < left_ 1 ops -> shows d r' c) /\ (left_ 1 ops <= 0 -> c = []).
Proof.
  intros L d reserved max f r ops outs r' HL Hm Hn F O T Run.
  destruct (good_run L d reserved max (Some f) r ops outs r' HL Hm Hn F O Run) as (evs & q' & C & Fr & Rf & R' & Cap).
  exists (items q'). split; [|split].
  - rewrite Fr. apply (calls_conserve _ _ _ _ _ C); auto. split; cbn; auto. discriminate.
  - intros K. destruct (R' ltac:(lia)) as (fl & R2). eapply rep_shows; eauto. lia.
  - intros K. eapply calls_gone; eauto; cbn; lia.
Qed.
Print Assumptions C19_ring_ownership.

(* The order in which elements are freed is given by C15 (events of [call]). Non-trivial case: *)
Definition c19_ops : list op :=
  [Put 1; Put 2; Put 3; Put 4; Put 5; Put 6; Put 7; Put 8; Get; Drop 1; DropLast 2; GetLast; SetMaxSize 2; PutFront 9; Put 10; Unref].
Example C19_example : Forall fair c19_ops /\ owned 1 c19_ops /\ Forall tracked c19_ops /\
  exists r outs r', new_full 100 0 (-1) (Some 5) = Ok r /\ run 100 Strict r c19_ops = Ok (outs, r') /\
    accepted c19_ops outs = [1; 2; 3; 4; 5; 6; 7; 8; 9; 10] /\ taken c19_ops outs = [1; 6] /\
    freed r' = [(5, 2); (5, 8); (5, 7); (5, 3); (5, 9); (5, 4); (5, 5); (5, 10)].
Proof.
  split; [all_fair|]. split; [vm_compute; repeat (split; [reflexivity|]); exact I|].
  split; [all_fair|].
  eexists _, _, _. split; [reflexivity|]. split; [vm_compute; reflexivity|]. vm_compute. auto.
Qed.

(* ------------------------------------------------------------------ C20 *)
(* for all rings reached by calls which did not fault (cf. C16) *)
Theorem C20_ring_flatten : forall L d reserved max f r ops outs r',
  0 <= L < 2^30 -> in_s32 max -> new_full L reserved max f = Ok r ->
  Forall fair ops -> owned 1 ops -> 0 < left_ 1 ops -> run L d r ops = Ok (outs, r') ->
  exists c p r2, shows d r' c /\ flatten L d r' = Ok (p, len c, r2) /\ shows d r2 c /\ freed r2 = freed r' /\
    match p with
    | None => c = []
    | Some off => c <> [] /\ slice (data r2) off (off + len c) = map Some c
    end.
Proof.
  intros L d reserved max f r ops outs r' HL Hm Hn F O Lf Run.
  destruct (good_run L d reserved max f r ops outs r' HL Hm Hn F O Run) as (evs & q' & C & Fr & Rf & R' & Cap).
  destruct (R' ltac:(lia)) as (fl & R2).
  destruct (flatten_spec L fl d r' q' R2 ltac:(lia)) as (r2 & p & E & R3 & Fr3 & _ & Hp & Hs).
  exists (items q'), p, r2. split; [eapply rep_shows; eauto; lia|]. split; auto.
  split; [eapply rep_shows; eauto; lia|]. split; auto.
  destruct p as [off|]; [|tauto]. split; [|auto]. intros K. apply Hp in K. discriminate.
Qed.
Print Assumptions C20_ring_flatten.

(* what the relation [calls] says about the contents is what [shows] says *)
Theorem C20_contents : forall L d reserved max f r ops outs r',
  0 <= L < 2^30 -> in_s32 max -> new_full L reserved max f = Ok r ->
  Forall fair ops -> owned 1 ops -> 0 < left_ 1 ops -> run L d r ops = Ok (outs, r') ->
  exists evs q', calls (new_dq max f) ops outs evs q' /\ shows d r' (items q').
Proof.
  intros L d reserved max f r ops outs r' HL Hm Hn F O Lf Run.
  destruct (good_run L d reserved max f r ops outs r' HL Hm Hn F O Run) as (evs & q' & C & Fr & Rf & R' & Cap).
  destruct (R' ltac:(lia)) as (fl & R2). exists evs, q'. split; auto. eapply rep_shows; eauto; lia.
Qed.
Print Assumptions C20_contents.

Example C20_example : exists r r' r2, new_full 100 4 (-1) None = Ok r /\
  run 100 Strict r [Put 1; Put 2; Put 3; Put 4; Get; Get; Put 5] =
    Ok ([OBool true; OBool true; OBool true; OBool true; OPtr 1; OPtr 2; OBool true], r') /\
  start r' = 2 /\ end_ r' = 1 /\
  flatten 100 Strict r' = Ok (Some 0, 3, r2) /\ data r2 = [Some 3; Some 4; Some 5].
Proof. eexists _, _, _. split; [reflexivity|]. split; [vm_compute; reflexivity|]. vm_compute. auto. Qed.

(* ------------------------------------------------------------------ C21 *)
(* False: gutil_ring_drop calls the free function before the element is removed; a free function
   which clears the ring is then called twice for the same element, and the ring ends up
   with a wrong state (a negative end, which later calls use as an index) *)
Theorem C21_free_may_use_ring_refuted :
  exists r r1 outs r2, new_full 100 4 (-1) (Some 5) = Ok r /\
    run 100 Strict r [Put 1; Put 2; Put 3] = Ok (outs, r1) /\
    step 100 Strict [play 100 Strict (Script [(Clear, [])])] r1 (Drop 1) = Ok (OInt 1, r2) /\
    freed r2 = [(5, 1); (5, 1); (5, 2); (5, 3)] /\
    run 100 Strict r2 [Put 9] = Fail OobWrite.
Proof.
  eexists _, _, _, _. split; [reflexivity|]. split; [vm_compute; reflexivity|].
  split; [vm_compute; reflexivity|]. split; vm_compute; reflexivity.
Qed.
Print Assumptions C21_free_may_use_ring_refuted.

Definition good_end (L : Z) (x : res ring) : Prop :=
  x = Fail AllocAbort \/ exists r' q', x = Ok r' /\ rep L false r' q' /\ 0 < refs q'.
Definition good_cb (L : Z) (k : ring -> res ring) : Prop :=
  forall r q, rep L false r q -> 0 < refs q -> good_end L (k r).

Lemma good_ok L r q : rep L false r q -> 0 < refs q -> good_end L (Ok r).
Proof. intros R P. right. exists r, q. auto. Qed.

Lemma get_any L d r q : L < 2^30 -> rep L false r q -> 0 < refs q ->
  exists x r' q', get d r = Ok (x, r') /\ rep L false r' q' /\ 0 < refs q'.
Proof.
  intros HL R P. destruct (items q) as [|x t] eqn:E.
  - exists 0, r, q. split; [eapply get_empty; eauto|auto].
  - destruct (get_spec L false d r q x t R HL E) as (s & e & G & R'). eauto 7.
Qed.

Lemma clear_loop_cb L d f : L < 2^30 -> forall n cbs r q, Forall (good_cb L) cbs -> rep L false r q -> 0 < refs q ->
  good_end L (clear_loop d n f cbs r).
Proof.
  intros HL. induction n as [|n IH]; intros cbs r q G R P; [eapply good_ok; eauto|]. cbn [clear_loop].
  destruct (get_any L d r q HL R P) as (x & r1 & q1 & E & R1 & P1). rewrite E. cbn [bind].
  unfold call_free. pose proof (rep_log L false r1 q1 f x R1) as R2.
  assert (forall cbs2 r3 q3, Forall (good_cb L) cbs2 -> rep L false r3 q3 -> 0 < refs q3 ->
    good_end L (match n with
      | O => Ok r3
      | S _ => do _ <- touch r3; do s <- size d r3; if s >? 0 then clear_loop d n f cbs2 r3 else Ok r3
      end)) as K.
  { intros cbs2 r3 q3 G3 R3 P3. destruct n as [|n']; [eapply good_ok; eauto|].
    unfold touch. rewrite (rp_gone _ _ _ _ R3). cbn [bind].
    rewrite (rep_size L false d r3 q3 R3 HL). cbn [bind].
    destruct (len (items q3) >? 0); [eapply IH; eauto|eapply good_ok; eauto]. }
  destruct cbs as [|k t]; cbn [bind].
  - apply (K [] _ q1); auto.
  - inversion G; subst. destruct (H1 _ _ R2 P1) as [E2|(r3 & q3 & E2 & R3 & P3)]; rewrite E2; cbn [bind].
    + left. reflexivity.
    + apply (K t _ q3); auto.
Qed.

Lemma clear_cb L d cbs r q : L < 2^30 -> Forall (good_cb L) cbs -> rep L false r q -> 0 < refs q -> good_end L (clear d cbs r).
Proof.
  intros HL G R P. unfold clear. rewrite (rep_size L false d r q R HL). cbn [bind].
  destruct (len (items q) >? 0); [|eapply good_ok; eauto].
  destruct (free_func r); [eapply clear_loop_cb; eauto|]. right. eexists _, _. split; [reflexivity|].
  split; [apply rep_empty_se; eauto|auto].
Qed.

Fixpoint script_rec (P : script -> Prop)
  (H : forall l, Forall (fun p => Forall P (snd p)) l -> P (Script l)) (s : script) : P s :=
  match s with
  | Script l => H l
      ((fix go l : Forall (fun p => Forall P (snd p)) l :=
          match l with
          | [] => Forall_nil _
          | (o, inner) :: t => Forall_cons (o, inner)
              ((fix go2 i : Forall P i :=
                  match i with [] => Forall_nil _ | s :: i' => Forall_cons s (script_rec P H s) (go2 i') end) inner)
              (go t)
          end) l)
  end.

Lemma gentle_all_forall l : gentle_all l -> Forall gentle l.
Proof. induction 1; constructor; auto. Qed.

Lemma gentle_play L d s : L < 2^30 -> gentle s -> good_cb L (play L d s).
Proof.
  intros HL. induction s as [l IH] using script_rec. intros G. inversion G as [l' G' E]; subst l'. clear G.
  cbn [play]. induction l as [|(o, inner) l IHl]; intros r q R P; [eapply good_ok; eauto|].
  inversion IH as [|? ? IH1 IH2]; subst. cbn [snd] in IH1.
  destruct (G' o inner (or_introl eq_refl)) as (F & NF & NU & C & GI).
  assert (forall r' q', rep L false r' q' -> 0 < refs q' ->
    good_end L ((fix go l r := match l with [] => Ok r | (o, inner) :: t =>
             do (_, r) <- step L d (map (play L d) inner) r o; go t r end) l r')) as K.
  { intros. eapply IHl; eauto. intros o' i' Hin. apply G'. right. exact Hin. }
  destruct C as [->| ->].
  - assert (good_end L (clear d (map (play L d) inner) r)) as GC.
    { eapply clear_cb; eauto. apply Forall_map. apply gentle_all_forall in GI.
      rewrite Forall_forall in *. intros s Hs. apply IH1; auto. }
    unfold step, touch. rewrite (rp_gone _ _ _ _ R). cbn [bind].
    destruct GC as [E|(r' & q' & E & R' & P')]; rewrite E; cbn [bind]; [left; reflexivity|eapply K; eauto].
  - cbn [map]. destruct (step_spec L false d r q o R HL F P) as [(_ & ? & _)|[(E & _)|(x & r' & ev & q' & E & _ & _ & Rf & R' & _)]];
      [discriminate|rewrite E; left; reflexivity|]. rewrite E. cbn [bind].
    assert (0 < refs q') as P' by (rewrite Rf; destruct o; cbn; try lia; congruence).
    eapply K; [|eauto]. specialize (R' P'). destruct o; try exact R'. congruence.
Qed.

(* Holds if the free function uses the ring only when it is called by gutil_ring_clear, nobody
   flattens the ring and nobody drops a reference: the ring then still behaves like some sequence,
   now and under all later calls.
   Missing: free functions called by gutil_ring_drop, gutil_ring_drop_last,
   gutil_ring_set_max_size and gutil_ring_unref. *)
Theorem C21_free_may_use_ring_partial : forall L d reserved max f r ops outs r' s,
  0 <= L < 2^30 -> in_s32 max -> new_full L reserved max f = Ok r ->
  Forall fair ops -> owned 1 ops -> 0 < left_ 1 ops -> ~ In Flatten ops -> run L d r ops = Ok (outs, r') ->
  gentle s ->
  play L d s r' = Fail AllocAbort \/
  exists r2 q2, play L d s r' = Ok r2 /\ shows d r2 (items q2) /\ 0 < refs q2 /\
    forall ops2, Forall fair ops2 -> owned (refs q2) ops2 -> tame false ops2 ->
      run L d r2 ops2 = Fail AllocAbort \/
      exists outs2 r3 evs q3, run L d r2 ops2 = Ok (outs2, r3) /\ calls q2 ops2 outs2 evs q3 /\
        freed r3 = freed r2 ++ frees evs.
Proof.
  intros L d reserved max f r ops outs r' s HL Hm Hn F O Lf NF Run G.
  destruct (new_rep L reserved max f r HL Hm Hn) as (R & _).
  assert (exists q', rep L false r' q' /\ 0 < refs q') as (q' & R' & P').
  { clear Hn. revert R O Lf Run. change 1 with (refs (new_dq max f)). generalize (new_dq max f) as q.
    revert r outs F NF. induction ops as [|o ops IH]; intros r outs F NF q R O Lf Run.
    - cbn in Run. inversion Run; subst. eauto.
    - inversion F; subst. destruct O as (O1 & O2). cbn [run] in Run.
      destruct (step_spec L false d r q o R ltac:(lia) ltac:(auto) O1) as [(_ & ? & _)|[(E & _)|(x & r1 & ev & q1 & E & _ & _ & Rf & R1 & _)]];
        [discriminate|rewrite E in Run; discriminate|]. rewrite E in Run. cbn [bind] in Run.
      destruct (run L d r1 ops) as [[l r3]|] eqn:E3; [|discriminate]. cbn [bind] in Run. inversion Run; subst.
      assert (left_ (refs q1) ops = left_ (refs q) (o :: ops)) as O4 by (rewrite Rf; destruct o; reflexivity).
      assert (owned (refs q1) ops) as O3 by (rewrite Rf; destruct o; exact O2).
      assert (0 < refs q1) as P1.
      { destruct ops; [change (refs q1 = left_ (refs q) [o]) in O4; rewrite O4; exact Lf|destruct O3; auto]. }
      eapply (IH r1 l ltac:(auto)); eauto.
      + intros K. apply NF. right. exact K.
      + specialize (R1 P1). destruct o; try exact R1. exfalso. apply NF. left. reflexivity.
      + lia. }
  destruct (gentle_play L d s ltac:(lia) G r' q' R' P') as [E|(r2 & q2 & E & R2 & P2)]; [left; auto|right].
  exists r2, q2. split; auto. split; [eapply rep_shows; eauto; lia|]. split; auto.
  intros ops2 F2 O2 T2.
  destruct (run_spec L d ltac:(lia) ops2 false r2 q2 R2 F2 O2) as [E2|[(_ & K)|(outs2 & r3 & evs & q3 & E2 & C & Fr & _)]]; auto.
  - contradiction.
  - right. exists outs2, r3, evs, q3. auto.
Qed.
Print Assumptions C21_free_may_use_ring_partial.

(* clearing 1,2,3 with a free function which puts 7 at its first call, and 8 and a nested clear at its second *)
Definition c21_script : script :=
  Script [(Clear, [Script [(Put 7, [])]; Script [(Put 8, []); (Clear, [Script []])]]); (Put 9, [])].
Example C21_example : gentle c21_script /\
  exists r r1 outs r2, new_full 100 4 (-1) (Some 5) = Ok r /\
    run 100 Strict r [Put 1; Put 2; Put 3] = Ok (outs, r1) /\ play 100 Strict c21_script r1 = Ok r2 /\
    freed r2 = [(5, 1); (5, 2); (5, 3); (5, 7); (5, 8)] /\ size Strict r2 = Ok 1.
Proof.
  split.
  - constructor. intros o inner [H|[H|[]]]; inversion H; subst; clear H.
    + repeat (split; [try exact I; try discriminate; auto|]).
      constructor; [|constructor; [|constructor]].
      * constructor. intros o inner [H|[]]; inversion H; subst.
        repeat (split; [try exact I; try discriminate; auto|]). constructor.
      * constructor. intros o inner [H|[H|[]]]; inversion H; subst;
        repeat (split; [try exact I; try discriminate; auto|]); repeat constructor.
        all: match goal with H : In _ [] |- _ => destruct H end.
    + repeat (split; [try exact I; try discriminate; auto|]). constructor.
  - eexists _, _, _, _. split; [reflexivity|]. split; [vm_compute; reflexivity|].
    split; [vm_compute; reflexivity|]. split; vm_compute; reflexivity.
Qed.
