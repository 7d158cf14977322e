(* Properties C22-C25: the history *)
From Verif Require Import Base.
From Verif Require RingProofs.
From Verif Require Import HistoryModel HistorySpec HistoryProofs.
From Coq Require Import ZifyBool.
Ltac Zify.zify_post_hook ::= Z.div_mod_to_equations.

(* the history h holds the samples s, oldest first, in consecutive (modulo its size) entries *)
Definition holds (h : hist) (s : list (Z * Z)) : Prop :=
  len (entry h) = max_size h /\
  (s = [] -> first h = -1 /\ last h = -1) /\
  (s <> [] -> 0 <= first h < max_size h /\ len s <= max_size h /\
     last h = (first h + (len s - 1)) mod max_size h /\
     forall i x, 0 <= i -> nth_error s (Z.to_nat i) = Some x -> rd (entry h) ((first h + i) mod max_size h) = Ok x).

Lemma rep_holds N W h s : rep N W h s -> holds h s.
Proof.
  intros [R1 R2 R3 R4 R5 R6 R7 R8 R9 R10]. subst N. split; auto.
  destruct R6 as [(-> & H1 & H2)|(Hs & Hf & Hn & Hl & Hc)].
  - split; [auto|congruence].
  - split; [congruence|]. intros _. pose proof (RingProofs.len_pos s Hs).
    split; auto. split; auto. split; [rewrite <- at_mod by lia; auto|].
    intros i x Hi Hx. pose proof (RingProofs.nth_error_bound _ _ _ Hi Hx). rewrite <- at_mod by lia. auto.
Qed.

(* ------------------------------------------------------------------ C22 *)
(* With two's complement arithmetic: any size and any values *)
Theorem C22_history_window : forall N W h ops,
  in_s32 N -> in_s64 W -> new_full N W = Some h -> Forall fair ops ->
  exists xs h', run Wrap h ops = Ok (xs, h') /\ holds h' (afters N W [] ops) /\
    all_return (fun _ => False) N W [] ops xs.
Proof.
  intros N W h ops HN HW Hnew F. pose proof (new_rep N W h HN HW Hnew) as R.
  pose proof (rp_Wr _ _ _ _ R) as HWr.
  destruct (run_spec N W (-1) Wrap (or_introl eq_refl) ltac:(lia) ltac:(lia) ops h [] R F)
    as [((Hd & _) & _)|(xs & h' & E & R' & A)]; [discriminate|].
  exists xs, h'. split; auto. split; [eapply rep_holds; eauto|].
  clear - A. revert A. generalize (@nil (Z * Z)) as s. revert xs.
  induction ops as [|(o, now) ops IH]; intros xs s A; destruct xs as [|x xs]; cbn [all_return] in *; auto.
  destruct A as (A1 & A2). split; auto. destruct o; cbn [returns] in *; auto; [contradiction|].
  destruct (after N W s (Median dflt) now); auto. contradiction.
Qed.
Print Assumptions C22_history_window.

(* With undefined signed overflow: sizes up to 2^30; the only possible fault is an overflow while
   averaging (see C24) *)
Theorem C22_history_window_strict : forall N W h ops,
  in_s32 N -> N <= 2^30 -> in_s64 W -> new_full N W = Some h -> Forall fair ops ->
  run Strict h ops = Fail SignedOverflow \/
  exists xs h', run Strict h ops = Ok (xs, h') /\ holds h' (afters N W [] ops) /\
    all_return (fun _ => False) N W [] ops xs.
Proof.
  intros N W h ops HN HN2 HW Hnew F. pose proof (new_rep N W h HN HW Hnew) as R.
  pose proof (rp_Wr _ _ _ _ R) as HWr.
  destruct (run_spec N W (-1) Strict (or_intror HN2) ltac:(lia) ltac:(lia) ops h [] R F)
    as [((_ & E) & _)|(xs & h' & E & R' & A)]; [auto|right].
  exists xs, h'. split; auto. split; [eapply rep_holds; eauto|].
  clear - A. revert A. generalize (@nil (Z * Z)) as s. revert xs.
  induction ops as [|(o, now) ops IH]; intros xs s A; destruct xs as [|x xs]; cbn [all_return] in *; auto.
  destruct A as (A1 & A2). split; auto. destruct o; cbn [returns] in *; auto; [contradiction|].
  destruct (after N W s (Median dflt) now); auto. contradiction.
Qed.
Print Assumptions C22_history_window_strict.

(* wraps around, expires, meets a clock that stops and one that goes back *)
Definition c22_ops : list (op * Z) :=
  [(Add 10, 100); (Add 20, 110); (Add 30, 120); (Add 40, 130); (Size, 130); (Interval, 131); (Add 50, 130);
   (Add 60, 125); (Median 7, 180); (Size, 220); (Interval, 225); (Median 7, 400); (Size, 400); (Add (-5), 50)].
Example C22_example : Forall fair c22_ops /\
  afters 3 100 [] (firstn 8 c22_ops) = [(110, 20); (120, 30); (130, 60)] /\
  exists h h', new_full 3 100 = Some h /\
    run Strict h c22_ops = Ok ([10; 15; 20; 30; 3; 21; 32; 35; 35; 2; 95; 7; 0; -5], h').
Proof.
  split; [unfold c22_ops; repeat (apply Forall_cons; [unfold fair, in_s32; cbn [fst snd]; lia|]); apply Forall_nil|].
  split; [vm_compute; reflexivity|].
  eexists _, _. split; [reflexivity|]. vm_compute. reflexivity.
Qed.

(* ------------------------------------------------------------------ C23 *)
Theorem C23_history_timestamps : forall d N W h ops xs h',
  in_s32 N -> in_s64 W -> new_full N W = Some h -> Forall fair ops ->
  run d h ops = Ok (xs, h') ->
  exists s, holds h' s /\ increasing s /\ len s <= N /\ span s <= W /\
    forall now, 0 <= now < 2^63 -> Forall (fun e => fst e <= now) s ->
      exists x h2, step d h' Interval now = Ok (x, h2) /\ 0 <= x <= W.
Proof.
  intros d N W h ops xs h' HN HW Hnew F E. pose proof (new_rep N W h HN HW Hnew) as R.
  destruct (run_any N W d ops h [] R F) as [(_ & E2)|(xs2 & h2 & E2 & R2)]; [congruence|].
  rewrite E in E2. injection E2 as <- <-. exists (afters N W [] ops).
  split; [eapply rep_holds; eauto|]. split; [eapply rp_inc; eauto|].
  split. { destruct (rp_lay _ _ _ _ R2) as [(-> & _)|(_ & _ & Hn & _)]; auto. pose proof (rp_Nr _ _ _ _ R2). change (len (@nil (Z*Z))) with 0. lia. }
  split; [eapply rp_span; eauto|].
  intros now Hnow Hall. pose proof (rp_Wr _ _ _ _ R2).
  destruct (interval_spec N W h' _ now d R2 Hnow) as (x & h2 & E3 & R3 & Hx).
  exists x, h2. split; auto.
  destruct (recent W now (afters N W [] ops)) as [|(t, v) r] eqn:Er; cbn in Hx; [lia|].
  assert (In (t, v) (recent W now (afters N W [] ops))) as I by (rewrite Er; left; auto).
  unfold recent in I. apply filter_In in I. destruct I as (I1 & I2). cbn [fst] in I2.
  rewrite Forall_forall in Hall. specialize (Hall _ I1). cbn [fst] in Hall. lia.
Qed.
Print Assumptions C23_history_timestamps.

Example C23_example : exists h h1, new_full 3 100 = Some h /\
  run Strict h (firstn 9 c22_ops) = Ok ([10; 15; 20; 30; 3; 21; 32; 35; 35], h1) /\
  (exists h2, step Strict h1 Interval 209 = Ok (99, h2)) /\
  (exists h2, step Strict h1 Interval 211 = Ok (91, h2)) /\
  (* the clock has gone back *)
  (exists h2, step Strict h1 Interval 100 = Ok (-10, h2)).
Proof.
  eexists _, _. split; [reflexivity|]. split; [vm_compute; reflexivity|].
  split; [eexists; vm_compute; reflexivity|]. split; eexists; vm_compute; reflexivity.
Qed.

(* ------------------------------------------------------------------ C24 *)
(* Two equal samples have this very average; the code overflows (strict reading) or returns -1 *)
Theorem C24_history_median_refuted : exists h ops,
  new_full 2 10 = Some h /\ Forall fair ops /\
  afters 2 10 [] ops = [(0, 2147483647); (1, 2147483647)] /\
  run Strict h ops = Fail SignedOverflow /\
  exists h', run Wrap h ops = Ok ([2147483647; -1], h').
Proof.
  eexists _, [(Add 2147483647, 0); (Add 2147483647, 1)]. split; [reflexivity|].
  split; [repeat (apply Forall_cons; [unfold fair, in_s32; cbn [fst snd]; lia|]); apply Forall_nil|].
  split; [reflexivity|]. split; [vm_compute; reflexivity|]. eexists. vm_compute. reflexivity.
Qed.
Print Assumptions C24_history_median_refuted.

(* Missing from the claim: values of 2^30 and more, or so large that the sum of value * time
   leaves 64 bits *)
Theorem C24_history_median_partial : forall d N W B h ops,
  in_s32 N -> d = Wrap \/ N <= 2^30 -> in_s64 W -> new_full N W = Some h -> Forall fair ops ->
  2 * B < 2^31 -> 2 * B * W < 2^63 ->
  Forall (fun p => match fst p with Add v => -B <= v <= B | _ => True end) ops ->
  exists xs h', run d h ops = Ok (xs, h') /\ all_return (fun _ => True) N W [] ops xs.
Proof.
  intros d N W B h ops HN Hd HW Hnew F HB HBW Hm. pose proof (new_rep N W h HN HW Hnew) as R.
  assert (all_after N W [] ops (mild_by B)) as A by (apply all_after_mild; auto; constructor).
  destruct (run_spec N W B d Hd HB HBW ops h [] R F) as [(_ & K)|(xs & h' & E & _ & A2)]; [contradiction|].
  exists xs, h'. split; auto. eapply all_return_mild; eauto.
Qed.
Print Assumptions C24_history_median_partial.

(* Without restriction on the values: what is defined by ISO C is right. First the sum *)
Lemma strict32 z y : arith32 Strict z = Ok y -> y = z.
Proof. cbn [arith32]. destruct ((-2^31 <=? z) && (z <? 2^31)); congruence. Qed.
Lemma strict64 z y : arith64 Strict z = Ok y -> y = z.
Proof. cbn [arith64]. destruct ((-2^63 <=? z) && (z <? 2^63)); congruence. Qed.

Lemma acc_strict lo hi : forall r t v dt area dt' a, between lo hi ((t, v) :: r) -> increasing ((t, v) :: r) ->
  lo * dt <= area <= hi * dt -> acc Strict r t v dt area = Ok (dt', a) ->
  lo * dt' <= a <= hi * dt' /\ Z.abs (2 * (a - area) - area2 ((t, v) :: r)) <= len r.
Proof.
  induction r as [|(t1, v1) r IH]; intros t v dt area dt' a Bt Inc Ha E.
  - cbn [acc] in E. inversion E; subst. cbn [area2]. change (len []) with 0. lia.
  - cbn [acc] in E. inversion Bt as [|? ? Bt1 Bt2]; subst. inversion Bt2 as [|? ? Bt3 Bt4]; subst. cbn [snd] in *.
    destruct Inc as (Inc1 & Inc2). set (dx := t1 - t) in *.
    destruct (arith32 Strict (v + v1)) as [y|] eqn:E1; cbn [bind] in E; [|discriminate]. apply strict32 in E1. subst y.
    destruct (arith64 Strict (dx * (v + v1))) as [z|] eqn:E2; cbn [bind] in E; [|discriminate]. apply strict64 in E2. subst z.
    pose proof (Z.quot_rem' (dx * (v + v1)) 2) as QR. pose proof (Z.rem_bound_abs (dx * (v + v1)) 2 ltac:(lia)) as RB.
    set (q := Z.quot (dx * (v + v1)) 2) in *. set (rm := Z.rem (dx * (v + v1)) 2) in *.
    destruct (arith64 Strict (area + q)) as [ar|] eqn:E3; cbn [bind] in E; [|discriminate]. apply strict64 in E3. subst ar.
    assert (lo * dx * 2 <= dx * (v + v1) <= hi * dx * 2) as P1 by nia.
    destruct (IH t1 v1 (dt + dx) (area + q) dt' a Bt2 Inc2) as (A1 & A2); auto; [nia|].
    split; auto. rewrite len_cons. cbn [area2]. fold dx.
    change (match r with [] => 0 | (t2, v2) :: _ => (t2 - t1) * (v1 + v2) + area2 r end) with (area2 ((t1, v1) :: r)). lia.
Qed.

Lemma median_at_strict N W h s z : rep N W h s -> s <> [] -> median_at Strict h = Ok z -> average s z.
Proof.
  intros R Hs Em. pose proof R as [R1 R2 R3 R4 R5 R6 R7 R8 R9 R10].
  destruct s as [|(t, v) r]; [congruence|]. unfold median_at in Em.
  pose proof (layout_first _ _ _ _ _ _ R6) as Hfst.
  destruct R6 as [(? & _)|(_ & Hf & Hl & Hlast & Hc)]; [discriminate|]. rewrite len_cons in *. pose proof (len_nonneg r).
  replace (1 + len r - 1) with (len r) in Hlast by lia.
  assert (first h = at_ N (first h) 0) as K0.
  { unfold RingProofs.at_. replace (first h + 0 <? N) with true by lia. lia. }
  destruct r as [|e r0] eqn:Er.
  - change (len []) with 0 in *. assert (last h = first h) as El by congruence.
    rewrite El, Z.eqb_refl, Hfst in Em. cbn [bind snd] in Em. inversion Em; subst z.
    split; [exists (t, v); cbn; split; [auto|lia]|]. split; [exists (t, v); cbn; split; [auto|lia]|].
    cbn [span rev app area2]. rewrite Z.sub_diag. lia.
  - rewrite <- Er in *. assert (1 <= len r) as Hr by (apply RingProofs.len_pos; congruence).
    assert (first h =? last h = false) as E0.
    { apply Z.eqb_neq. intros K. rewrite Hlast in K. rewrite K0 in K at 1. apply at_inj in K; lia. }
    rewrite E0, Hfst in Em. cbn [bind fst snd] in Em.
    assert (median_loop (Z.to_nat (max_size h)) Strict h (first h) v t 0 0 = acc Strict r t v 0 0) as El.
    { rewrite K0 at 1. apply (median_loop_acc Strict h N R1 R2 Hf); auto; try lia.
      - intros j x Hj Hx. apply Hc; [lia|]. replace (Z.to_nat (0 + 1 + j)) with (S (Z.to_nat j)) by lia. exact Hx.
      - unfold len in *. lia.
      - inversion R8; subst. cbn in *. lia. }
    rewrite El in Em. pose proof (len_le_span _ _ _ R7) as Hsp.
    destruct (acc Strict r t v 0 0) as [[dt a]|] eqn:E; cbn [bind] in Em; [|discriminate].
    destruct (extremes ((t, v) :: r)) as (lo & hi & Bt & (ea & A1 & A2) & (eb & B1 & B2)); [discriminate|].
    destruct (acc_strict lo hi r t v 0 0 dt a Bt R7 ltac:(lia) E) as (S1 & S2).
    apply acc_dt in E. replace (0 + span ((t, v) :: r)) with (span ((t, v) :: r)) in E by lia. subst dt.
    set (dt := span ((t, v) :: r)) in *. replace (dt =? 0) with false in Em by lia.
    pose proof (Z.quot_rem' a dt) as QR. pose proof (Z.rem_bound_abs a dt ltac:(lia)) as RB.
    set (q := Z.quot a dt) in *. set (rm := Z.rem a dt) in *.
    assert (lo <= q <= hi) as Q by (split; nia).
    destruct (arith64 Strict q) as [y|] eqn:E5; cbn [bind] in Em; [|discriminate]. apply strict64 in E5. subst y.
    unfold valued in R9. rewrite Forall_forall in R9. pose proof (R9 _ A1) as V1. pose proof (R9 _ B1) as V2. unfold in_s32 in V1, V2.
    assert (s32 q = q) as Eq by (unfold s32; rewrite Z.mod_small by lia; lia). rewrite Eq in Em. inversion Em; subst z.
    split; [exists ea; split; [auto|lia]|]. split; [exists eb; split; [auto|lia]|].
    fold dt. assert (2 * dt * q = 2 * a - 2 * rm) as -> by (clear - QR; clearbody q rm dt; nia). lia.
Qed.

Lemma step_strict N W h s o now : rep N W h s -> fair (o, now) -> N <= 2^30 ->
  step Strict h o now = Fail SignedOverflow \/
  exists x h', step Strict h o now = Ok (x, h') /\ rep N W h' (after N W s o now) /\ returns (fun _ => True) (after N W s o now) o now x.
Proof.
  intros R F HN. pose proof (rp_Wr _ _ _ _ R) as HWr.
  destruct (step_spec N W h s o now Strict (-1) R F ltac:(right; auto) ltac:(lia) ltac:(lia)) as [((_ & E) & _)|(x & h' & E & R' & Rt)]; [left; exact E|].
  right. exists x, h'. split; auto. split; auto. destruct o as [v|v| | |]; cbn [returns] in *; auto.
  - intros _. apply (median_at_strict N W h'); auto; [apply added_ne; apply (rp_Nr _ _ _ _ R)|].
    cbn [step] in E. unfold add in E.
    repeat match type of E with
    | bind ?m _ = Ok _ => destruct m as [?|] eqn:?; cbn [bind] in E; [|discriminate]
    | (let (_, _) := ?p in _) = _ => destruct p
    end. inversion E; subst. assumption.
  - destruct (after N W s (Median v) now) as [|e r] eqn:Ea; auto. intros _.
    apply (median_at_strict N W h'); auto; [discriminate|]. cbn [step] in E. unfold median in E.
    destruct F as (Hnow & _). cbn [snd] in Hnow. cbn [after] in Ea.
    destruct s as [|e0 s0] eqn:Es; [discriminate|]. rewrite <- Es in *. assert (s <> []) as Hs by congruence.
    pose proof (last_nonneg _ _ _ _ R Hs). replace (last h >=? 0) with true in E by lia.
    destruct (flush_spec N W h s now Strict R Hs Hnow) as (b & h1 & Ef & R1 & Hb). rewrite Ef in E. cbn [bind] in E.
    destruct b; [|assert (K : recent W now s = []) by (apply Hb; reflexivity); congruence].
    destruct (median_at Strict h1) as [z|] eqn:Em; cbn [bind] in E; [|discriminate]. inversion E; subst. exact Em.
Qed.

Theorem C24_history_median_defined : forall N W h ops,
  in_s32 N -> N <= 2^30 -> in_s64 W -> new_full N W = Some h -> Forall fair ops ->
  run Strict h ops = Fail SignedOverflow \/
  exists xs h', run Strict h ops = Ok (xs, h') /\ all_return (fun _ => True) N W [] ops xs.
Proof.
  intros N W h ops HN HN2 HW Hnew F. pose proof (new_rep N W h HN HW Hnew) as R. clear Hnew. revert h R.
  generalize (@nil sample). induction ops as [|(o, now) ops IH]; intros s h R; [right; exists [], h; cbn; auto|].
  inversion F; subst. cbn [run all_return].
  destruct (step_strict N W h s o now R) as [E|(x & h1 & E & R1 & Rt)]; auto; rewrite E; cbn [bind]; [left; reflexivity|].
  destruct (IH ltac:(auto) _ h1 R1) as [E2|(xs & h2 & E2 & A)]; rewrite E2; cbn [bind]; [left; reflexivity|].
  right. exists (x :: xs), h2. auto.
Qed.
Print Assumptions C24_history_median_defined.

(* values far beyond the bounds of the theorem before it *)
Example C24_example_defined : exists h h', new_full 3 100 = Some h /\
  run Strict h [(Add 2147483647, 5); (Add (-2147483648), 7); (Add 2147483647, 90); (Median 0, 100)] =
    Ok ([2147483647; 0; 0; 0], h') /\
  run Strict h [(Add 2147483647, 5); (Add 1, 7)] = Fail SignedOverflow.
Proof. eexists _, _. split; [reflexivity|]. split; vm_compute; reflexivity. Qed.

Example C24_example : exists h h', new_full 3 100 = Some h /\ 2 * 1000000 < 2^31 /\ 2 * 1000000 * 100 < 2^63 /\
  run Strict h [(Add (-1000000), 5); (Add 1000000, 7); (Add 3, 90); (Median 0, 100)] = Ok ([-1000000; 0; 488236; 488236], h').
Proof. eexists _, _. split; [reflexivity|]. split; [lia|]. split; [lia|]. vm_compute. reflexivity. Qed.

(* ------------------------------------------------------------------ C25 *)
Theorem C25_history_safe : forall d N W h ops e,
  in_s32 N -> in_s64 W -> new_full N W = Some h -> Forall fair ops ->
  run d h ops = Fail e -> d = Strict /\ e = SignedOverflow.
Proof.
  intros d N W h ops e HN HW Hnew F E. pose proof (new_rep N W h HN HW Hnew) as R.
  destruct (run_any N W d ops h [] R F) as [(Hd & E2)|(xs2 & h2 & E2 & R2)]; [split; congruence|congruence].
Qed.
Print Assumptions C25_history_safe.

(* The size reported by a history of more than 2^30 entries can overflow an int, which is one of
   the overflows allowed by C25 *)
Theorem C25_history_total : forall N W h ops,
  in_s32 N -> in_s64 W -> new_full N W = Some h -> Forall fair ops ->
  exists xs h', run Wrap h ops = Ok (xs, h').
Proof.
  intros N W h ops HN HW Hnew F.
  destruct (C22_history_window N W h ops HN HW Hnew F) as (xs & h' & E & _). eauto.
Qed.
Print Assumptions C25_history_total.

(* a history of one entry, with an expiring sample and a sample at the same time *)
Example C25_example : exists h h', new_full 1 1 = Some h /\
  run Strict h [(Add 4, 5); (Add 6, 5); (Median 9, 6); (Add 8, 6); (Median 9, 8); (Clear, 9); (Size, 9)] =
    Ok ([4; 6; 6; 8; 9; 0; 0], h').
Proof. eexists _, _. split; [reflexivity|]. vm_compute. reflexivity. Qed.
