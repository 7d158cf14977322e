(* Executions of well-behaved clients: the queue is not used after it was freed *)
From Verif Require Import Base IdleQueueModel IdleQueueSpec IdleQueueProofs IdleQueueInv IdleQueueStep.

(* frames which hold a reference, and the one which frees the queue *)
Definition freef (f : frame) : bool := match f with FAllLoop ByFree | FAllCb _ ByFree => true | _ => false end.
Definition lastf (f : frame) : bool := match f with FAllLoop ByUnref | FAllCb _ ByUnref => true | _ => false end.
Definition plain (f : frame) : bool := negb (freef f) && negb (lastf f).
Definition nfree (k : list frame) : Z := len (filter freef k).
Definition ncb (k : list frame) : Z := len (filter is_cb k).

Inductive stk : list frame -> list frame -> Prop :=
| stk_same k : stk k k
| stk_push f k : plain f = true -> stk k (f :: k)
| stk_pop f k : plain f = true -> stk (f :: k) k
| stk_swap f f' k : freef f = freef f' -> lastf f = lastf f' -> stk (f :: k) (f' :: k).

Definition quiet (e : event) : bool := match e with EAdd _ | ERef | EUnref | EFree | EZero | EGone => false | _ => true end.
Definition ending (e : event) : bool := match e with EPassEnd _ _ | EAllEnd | ETagEnd _ _ => true | _ => false end.
Definition tame (evs : list event) : Prop := forallb quiet evs = true /\ forallb (fun e => negb (ending e)) (tl evs) = true.

Definition clr (evs : list event) : Prop := evs = [] \/ exists e, evs = [e] /\ (exists i, e = EUnsource i \/ e = EBadUnsource i).

Inductive eff (s s' : state) (a : action) (q : queue) : Prop :=
| eff_plain q' evs : s_queue s' = Some q' -> q_refs q' = q_refs q -> s_trace s' = evs ++ s_trace s -> tame evs -> stk (s_stack s) (s_stack s') ->
    depth (s_trace s') - depth (s_trace s) = ncb (s_stack s') - ncb (s_stack s) -> eff s s' a q
| eff_add q' evs e tag data r d : a = ACall (CAdd tag data r d) -> s_queue s' = Some q' -> q_refs q' = q_refs q -> s_stack s' = s_stack s ->
    (evs = [] \/ exists i, evs = [ESource i]) -> s_trace s' = evs ++ EAdd e :: s_trace s -> eff s s' a q
| eff_ref q' : a = ACall CRef -> s_queue s' = Some q' -> q_refs q' = q_refs q + 1 -> s_stack s' = s_stack s -> s_trace s' = ERef :: s_trace s -> eff s s' a q
| eff_unref q' : a = ACall CUnref -> s_queue s' = Some q' -> q_refs q' = q_refs q - 1 -> q_refs q <> 1 -> s_stack s' = s_stack s ->
    s_trace s' = EUnref :: s_trace s -> eff s s' a q
| eff_unref0 q' : a = ACall CUnref -> s_queue s' = Some q' -> q_refs q' = 0 -> q_refs q = 1 -> s_stack s' = FAllLoop ByUnref :: s_stack s ->
    s_trace s' = EAll :: EZero :: EUnref :: s_trace s -> eff s s' a q
| eff_free q' : a = ACall CFree -> s_queue s' = Some q' -> q_refs q' = q_refs q -> s_stack s' = FAllLoop ByFree :: s_stack s ->
    s_trace s' = EAll :: EFree :: s_trace s -> eff s s' a q
| eff_freed q' evs : s_queue s' = Some q' -> q_refs q' = q_refs q - 1 -> q_refs q <> 1 -> s_stack s = FAllLoop ByFree :: s_stack s' ->
    clr evs -> s_trace s' = EAllEnd :: evs ++ s_trace s -> eff s s' a q
| eff_freed0 q' evs k : s_queue s' = Some q' -> q_refs q' = 0 -> q_refs q = 1 -> s_stack s = FAllLoop ByFree :: k -> s_stack s' = FAllLoop ByUnref :: k ->
    clr evs -> s_trace s' = EAll :: EZero :: EAllEnd :: evs ++ s_trace s -> eff s s' a q
| eff_gone evs : s_queue s' = None -> s_heap s' = s_heap s -> s_stack s = FAllLoop ByUnref :: s_stack s' -> (q_first q = None -> s_srcs s' = []) ->
    clr evs -> s_trace s' = EGone :: EAllEnd :: evs ++ s_trace s -> eff s s' a q.


Ltac flat_in H := cbn [bind the_queue s_heap s_queue s_srcs s_next s_stack s_trace set_heap set_queue set_stack emit pop] in H.
Ltac break1 H :=
  match type of H with
  | Ok _ = Ok _ => injection H as H; subst
  | Fail _ = Ok _ => discriminate H
  | bind ?x _ = Ok _ => let E := fresh "E" in let v := fresh "v" in destruct x as [v|] eqn:E; flat_in H
  | (if ?c then _ else _) = Ok _ => let E := fresh "E" in destruct c eqn:E; flat_in H
  | (match ?c with Some _ => _ | None => _ end) = Ok _ => let E := fresh "E" in destruct c eqn:E; flat_in H
  | (let (_, _) := ?c in _) = Ok _ => let E := fresh "E" in destruct c eqn:E; flat_in H
  end.
Ltac break H := repeat break1 H.
Lemma ncb_cons f k : ncb (f :: k) = (if is_cb f then 1 else 0) + ncb k.
Proof. unfold ncb, len. cbn [filter]. destruct (is_cb f); cbn [length]; lia. Qed.
Lemma nfree_cons f k : nfree (f :: k) = (if freef f then 1 else 0) + nfree k.
Proof. unfold nfree, len. cbn [filter]. destruct (freef f); cbn [length]; lia. Qed.
Ltac sizes := cbn [app depth]; rewrite ?ncb_cons; cbn [is_cb]; lia.
Ltac pl evs := eapply (eff_plain _ _ _ _ _ evs); flat; [reflexivity|reflexivity|reflexivity|split; reflexivity| |try sizes].

(* gutil_source_clear *)
Lemma clear_eff h q srcs nxt k tr s' : source_clear (State h (Some q) srcs nxt k tr) = Ok s' ->
  exists q' evs, s' = State h (Some q') (s_srcs s') nxt k (evs ++ tr) /\ q_refs q' = q_refs q /\ clr evs /\
    (srcok (q_source q) srcs k -> s_srcs s' = []).
Proof.
  unfold source_clear. intros H. flat_in H. break1 H.
  - injection H as <-. exists q, []. repeat split; auto. { left; auto. } apply Nat.eqb_eq in E. intros [(_ & ->)|(N & _)]; [reflexivity|contradiction].
  - unfold source_remove in H. flat_in H. destruct (existsb _ _) eqn:Ex; flat_in H; injection H as <-.
    + exists (set_source q 0), [EUnsource (q_source q)]. repeat split; auto. { right. eauto. }
      intros [(_ & ->)|(N & b & -> & _)]; [reflexivity|]. cbn. now rewrite Nat.eqb_refl.
    + exists (set_source q 0), [EBadUnsource (q_source q)]. repeat split; auto. { right. eauto. }
      intros [(_ & ->)|(N & b & -> & _)]; [reflexivity|]. cbn in Ex. rewrite Nat.eqb_refl in Ex. discriminate.
Qed.
Lemma clear_if_eff h q srcs nxt k tr s' (p : option nat) :
  match p with None => source_clear (State h (Some q) srcs nxt k tr) | Some _ => Ok (State h (Some q) srcs nxt k tr) end = Ok s' ->
  exists q' evs, s' = State h (Some q') (s_srcs s') nxt k (evs ++ tr) /\ q_refs q' = q_refs q /\ clr evs /\
    (p = None -> srcok (q_source q) srcs k -> s_srcs s' = []).
Proof.
  destruct p.
  - intros H. injection H as <-. exists q, []. repeat split; auto. { left; auto. } discriminate.
  - intros H. destruct (clear_eff _ _ _ _ _ _ _ H) as (q' & evs & A & B & C & D). exists q', evs. auto.
Qed.
Lemma clr_depth evs tr : clr evs -> depth (evs ++ tr) = depth tr.
Proof. intros [-> |(e & -> & i & [-> | ->])]; reflexivity. Qed.
Lemma clr_tame evs : clr evs -> forallb quiet evs = true /\ forallb (fun e => negb (ending e)) evs = true.
Proof. intros [-> |(e & -> & i & [-> | ->])]; auto. Qed.

Lemma drop_eff h q srcs nxt k k0 tr s' : drop (State h (Some q) srcs nxt k0 tr) k = Ok s' ->
  exists q', s_queue s' = Some q' /\ q_refs q' = q_refs q - 1 /\
    (if q_refs q =? 1 then s_stack s' = FAllLoop ByUnref :: k /\ s_trace s' = EAll :: EZero :: tr else s_stack s' = k /\ s_trace s' = tr).
Proof.
  unfold drop. intros H. flat_in H. replace (q_refs q =? 1) with (q_refs q - 1 =? 0).
  2:{ destruct (Z.eqb_spec (q_refs q - 1) 0), (Z.eqb_spec (q_refs q) 1); auto; lia. }
  destruct (q_refs q - 1 =? 0).
  - unfold cancel_all in H. flat_in H. break H. exists (set_refs q (q_refs q - 1)). auto.
  - injection H as <-. exists (set_refs q (q_refs q - 1)). auto.
Qed.

Lemma all_end_eff h q srcs nxt w k tr s' a : all_end (State h (Some q) srcs nxt (FAllLoop w :: k) tr) w k = Ok s' ->
  srcok (q_source q) srcs (FAllLoop w :: k) -> eff (State h (Some q) srcs nxt (FAllLoop w :: k) tr) s' a q.
Proof.
  unfold all_end. intros H Hs. flat_in H. break1 H; [|discriminate]. apply clear_if_eff in E. destruct E as (q' & evs & Es & Er & Hc & Hn).
  rewrite Es in H. flat_in H. destruct w.
  - injection H as <-. eapply (eff_plain _ _ _ _ _ (EAllEnd :: evs)); flat; [reflexivity|auto|reflexivity| |apply (stk_pop (FAllLoop ByClient)); reflexivity|].
    + destruct (clr_tame _ Hc). split; cbn; auto.
    + cbn [app depth]. rewrite clr_depth by auto. sizes.
  - apply drop_eff in H. destruct H as (q'' & Hq & Hr & H). rewrite Er in *. destruct (Z.eqb_spec (q_refs q) 1) as [E1|E1]; destruct H as (Hk & Ht).
    + eapply (eff_freed0 _ _ _ _ q'' evs k); flat; auto. lia.
    + eapply (eff_freed _ _ _ _ q'' evs); flat; auto. congruence.
  - injection H as <-. eapply (eff_gone _ _ _ _ evs); flat; auto.
Qed.

Lemma step_eff s a s' q : inv s -> s_queue s = Some q -> step s a = Ok s' -> eff s s' a q.
Proof.
  intros (L1 & L2 & Ds & I) Eq H. destruct s as [h oq srcs nxt k tr]. cbn in Eq. subst oq. flat_in I.
  assert (Hs : srcok (q_source q) srcs k) by (destruct I; tauto). clear I.
  assert (Same : eff (State h (Some q) srcs nxt k tr) (State h (Some q) srcs nxt k tr) a q).
  { pl (@nil event). apply stk_same. }
  assert (End : forall sid done k0 s', run_end (State h (Some q) srcs nxt k tr) sid done k0 = Ok s' -> k = FRunLoop sid done :: k0 ->
     eff (State h (Some q) srcs nxt k tr) s' a q).
  { clear. intros sid done k0 s' H ->. unfold run_end in H. flat_in H. break H.
    - pl [EPassEnd sid true]. apply stk_pop; reflexivity.
    - pl [EPassEnd sid false]. apply stk_pop; reflexivity. }
  assert (AfterRun : forall sid done b k0 h1 q1 evs f s', after_run (State h1 (Some q1) srcs nxt k (evs ++ tr)) sid done b k0 = Ok s' ->
     k = f :: k0 -> plain f = true -> q_refs q1 = q_refs q -> forallb quiet evs = true -> forallb (fun e => negb (ending e)) evs = true ->
     depth (evs ++ tr) = depth tr - (if is_cb f then 1 else 0) -> eff (State h (Some q) srcs nxt k tr) s' a q).
  { clear. intros sid done b k0 h1 q1 evs f s' H -> P Er Q1 Q2 Hd. unfold after_run in H. flat_in H.
    unfold plain in P. apply andb_prop in P. destruct P as (P1 & P2). apply negb_true_iff in P1, P2. break H.
    - eapply (eff_plain _ _ _ _ _ (EDestroy b (it_data v) :: evs)); flat; [reflexivity|auto|reflexivity| |apply stk_swap; auto|].
      + split; cbn; auto.
      + cbn [app depth]. rewrite !ncb_cons. cbn [is_cb]. lia.
    - eapply (eff_plain _ _ _ _ _ evs); flat; [reflexivity|auto|reflexivity| |apply stk_swap; auto|].
      + split; auto. destruct evs; cbn in *; auto. apply andb_prop in Q2. tauto.
      + rewrite !ncb_cons. cbn [is_cb]. lia. }
  assert (Tag1 : forall evs h1 q1 tag k0 s', tag_first_end (State h1 (Some q1) srcs nxt k (evs ++ tr)) tag k0 = Ok s' -> stk k k0 ->
     q_refs q1 = q_refs q -> forallb quiet evs = true -> forallb (fun e => negb (ending e)) evs = true ->
     depth (evs ++ tr) - depth tr = ncb k0 - ncb k -> eff (State h (Some q) srcs nxt k tr) s' a q).
  { clear. intros evs h1 q1 tag k0 s' H Hk Er Q1 Q2 Hd. unfold tag_first_end in H. flat_in H. break1 H; [|discriminate].
    apply clear_if_eff in E. destruct E as (q' & ev2 & Es & Er' & Hc & _). rewrite Es in H. flat_in H. injection H as <-.
    destruct (clr_tame _ Hc) as (C1 & C2).
    eapply (eff_plain _ _ _ _ _ (ETagEnd tag true :: ev2 ++ evs)); flat; [reflexivity|congruence|cbn; now rewrite app_assoc| |auto|].
    - split; cbn [forallb tl]; rewrite forallb_app; cbn; rewrite ?C1, ?C2, ?Q1, ?Q2; auto.
    - cbn [app depth]. rewrite clr_depth; auto. }
  assert (Idle : forall s', match a with
      | AStep => Ok (State h (Some q) srcs nxt k tr)
      | ACall c => do_call (State h (Some q) srcs nxt k tr) c
      | ANull c => null_call (State h (Some q) srcs nxt k tr) c
      | AReturn => match k with [] => Ok (State h (Some q) srcs nxt k tr) | f :: k => resume (State h (Some q) srcs nxt (f :: k) tr) f k end
      | ADispatch sid => dispatch (State h (Some q) srcs nxt k tr) sid
      end = Ok s' -> (forall f k0, k = f :: k0 -> is_cb f = true) -> eff (State h (Some q) srcs nxt k tr) s' a q).
  { clear H s'. intros s' H Cb. destruct a as [|c|c| |sid].
    - injection H as <-. auto.
    - destruct c as [tag data r d|tag|tag| | | |]; cbn [do_call] in H; flat_in H.
      + unfold add in H. flat_in H. break1 H; [|discriminate].
        match type of H with context [let (_, _) := ?p in _] => destruct p as (s1, q1) end. flat_in H.
        assert (K : exists h1, s1 = State h1 (Some q) srcs nxt k (EAdd (Entry (length h) tag data r d) :: tr) /\ q_refs q1 = q_refs q).
        { destruct (q_last q).
          - do 2 (break1 E; [|discriminate]). inversion E; subst; eexists; split; reflexivity.
          - inversion E; subst; eexists; split; reflexivity. }
        destruct K as (h1 & -> & Er). destruct (Nat.eqb (q_source q1) 0).
        * cbn [idle_add] in H. flat_in H. injection H as <-. eapply (eff_add _ _ _ _ _ [ESource nxt]); flat; try reflexivity; eauto.
        * injection H as <-. eapply (eff_add _ _ _ _ _ []); flat; try reflexivity; eauto.
      + break H. pl [EContains tag v]. apply stk_same.
      + unfold cancel_tag in H. flat_in H. break1 H; [break1 H; [|discriminate]|].
        2:{ injection H as <-. pl [ETagEnd tag false; ETag tag]. apply stk_same. }
        break1 H.
        * break1 H; [|discriminate]. break1 H.
          -- injection H as <-. pl [EDestroy n (it_data v); ECancel n; ETag tag]. apply stk_push; reflexivity.
          -- break1 H; [|discriminate]. apply (Tag1 [ECancel n; ETag tag]) in H; auto. { apply stk_same. } sizes.
        * break1 H; [|discriminate]. destruct v0 as [(pr, b)|].
          2:{ injection H as <-. pl [ETagEnd tag false; ETag tag]. apply stk_same. }
          do 4 (break1 H; [|discriminate]).
          destruct (it_next v0); flat_in H; (break1 H; [injection H as <-|break1 H; [injection H as <-|discriminate]]).
          -- pl [EDestroy b (it_data v0); ECancel b; ETag tag]. apply stk_push; reflexivity.
          -- pl [ETagEnd tag true; ECancel b; ETag tag]. apply stk_same.
          -- pl [EDestroy b (it_data v0); ECancel b; ETag tag]. apply stk_push; reflexivity.
          -- pl [ETagEnd tag true; ECancel b; ETag tag]. apply stk_same.
      + unfold cancel_all in H. flat_in H. break H. pl [EAll]. apply stk_push; reflexivity.
      + injection H as <-. eapply eff_ref; flat; reflexivity.
      + apply drop_eff in H. destruct H as (q' & Hq & Hr & H). destruct (Z.eqb_spec (q_refs q) 1) as [E1|E1]; destruct H as (Hk & Ht).
        * eapply eff_unref0; flat; eauto. lia.
        * eapply eff_unref; flat; eauto.
      + unfold cancel_all in H. flat_in H. break H. eapply eff_free; flat; reflexivity.
    - destruct c; cbn [null_call] in H; try (injection H as <-; exact Same).
      destruct destroy; [|injection H as <-; exact Same]. flat_in H. injection H as <-. pl [ENullDestroy data]. apply stk_push; reflexivity.
    - destruct k as [|f k0]; [injection H as <-; auto|]. specialize (Cb f k0 eq_refl). unfold resume in H. flat_in H.
      destruct f; try discriminate; cbn in Cb.
      + apply (AfterRun _ _ _ _ _ _ [EReturn] (FRunCb sid done a)) in H; auto.
      + injection H as <-. pl [EReturn]. apply stk_swap; reflexivity.
      + break H. pl [EReturn]. apply stk_swap; destruct w; reflexivity.
      + break1 H; [|discriminate]. apply (Tag1 [EReturn]) in H; auto. { apply stk_pop; reflexivity. } sizes.
      + break H. pl [ETagEnd tag true; EReturn]. apply stk_pop; reflexivity.
      + injection H as <-. pl [EReturn]. apply stk_pop; reflexivity.
    - unfold dispatch in H. flat_in H. break1 H.
      + break1 H; [|discriminate]. injection H as <-. pl [EPass sid]. apply stk_push; reflexivity.
      + injection H as <-. auto. }
  unfold step in H. flat_in H. destruct k as [|f k0]; [apply Idle; auto; discriminate|].
  destruct f as [sid done|w| | | | | |];
    try (apply Idle; auto; intros f' k1 Ek; injection Ek as <- <-; reflexivity).
  - destruct a; try (injection H as <-; exact Same). unfold run_loop in H. flat_in H. break1 H; [|eauto].
    break1 H; [|discriminate]. break1 H; [|eauto]. break1 H; [|discriminate]. break1 H.
    + injection H as <-. pl [ERun n (it_data v); ETake n]. apply stk_swap; reflexivity.
    + eapply (AfterRun _ _ _ _ _ _ [ETake n] (FRunLoop sid done)) in H; auto. cbn. lia.
  - destruct a; try (injection H as <-; exact Same). unfold all_loop in H. flat_in H. break1 H; [|apply all_end_eff; auto].
    break1 H; [|discriminate]. break1 H; [|apply all_end_eff; auto]. break1 H.
    + injection H as <-. pl [EDestroy n (it_data v); ECancel n]. apply stk_swap; destruct w; reflexivity.
    + break H. pl [ECancel n]. apply stk_same.
Qed.

(* ---------------- the invariant of well-behaved clients ---------------- *)
Definition keep (f : frame) : bool := negb (lastf f).
Definition closing (k : list frame) (tr : list event) : Prop :=
  exists k' f b o, k = k' ++ [f] /\ lastf f = true /\ forallb keep k' = true /\ active tr = o ++ [OAll b] /\ incl (pending tr) b.
Definition sane (s : state) : Prop :=
  depth (s_trace s) = ncb (s_stack s) /\ 0 <= owned (s_trace s) /\
  match s_queue s with
  | None => Forall (fun f => f = FNullCb) (s_stack s) /\ s_srcs s = [] /\ pending (s_trace s) = [] /\ owned (s_trace s) = 0 /\
            (forall a it, nth_error (s_heap s) a <> Some (Some it))
  | Some q => q_refs q = owned (s_trace s) + nfree (s_stack s) /\
      ((0 < q_refs q /\ forallb keep (s_stack s) = true) \/ (q_refs q = 0 /\ closing (s_stack s) (s_trace s)))
  end.

Lemma stk_nfree k k' : stk k k' -> nfree k' = nfree k.
Proof.
  intros []; auto; rewrite ?nfree_cons.
  - unfold plain in H. destruct (freef f); [discriminate|]. lia.
  - unfold plain in H. destruct (freef f); [discriminate|]. lia.
  - rewrite H. lia.
Qed.
Lemma stk_keep k k' : stk k k' -> forallb keep k = true -> forallb keep k' = true.
Proof.
  intros []; auto; cbn; rewrite ?andb_true_iff.
  - unfold plain in H. apply andb_prop in H. unfold keep. tauto.
  - tauto.
  - unfold keep. rewrite H0. auto.
Qed.
Lemma stk_closing k k' k1 f : stk k k' -> k = k1 ++ [f] -> lastf f = true -> forallb keep k1 = true ->
  exists k1' f', k' = k1' ++ [f'] /\ lastf f' = true /\ forallb keep k1' = true.
Proof.
  intros [k0|g k0 P|g k0 P|g g' k0 A B] E Lf Ke; subst.
  - eauto.
  - exists (g :: k1), f. cbn. rewrite Ke. unfold plain in P. apply andb_prop in P. unfold keep. rewrite (proj2 P). auto.
  - destruct k1 as [|x k1]; cbn in *; inversion E; subst.
    + unfold plain in P. rewrite Lf, andb_false_r in P. discriminate.
    + apply andb_prop in Ke. exists k1, f. tauto.
  - destruct k1 as [|x k1]; cbn in *; inversion E; subst.
    + exists [], g'. cbn. rewrite <- B. auto.
    + exists (g' :: k1), f. cbn. unfold keep at 1. rewrite <- B. auto.
Qed.
Lemma quiet_pending evs tr : forallb quiet evs = true -> incl (pending (evs ++ tr)) (pending tr).
Proof.
  induction evs as [|e evs IH]; cbn [app forallb]; [intros _ x; auto|]. rewrite andb_true_iff. intros (Q & F). specialize (IH F).
  destruct e; try discriminate; cbn [pending]; auto; intros x I; apply filter_In in I; apply IH; tauto.
Qed.
Lemma quiet_owned evs tr : forallb quiet evs = true -> owned (evs ++ tr) = owned tr.
Proof.
  induction evs as [|e evs IH]; cbn [app forallb]; auto. rewrite andb_true_iff. intros (Q & F). specialize (IH F). destruct e; try discriminate; auto.
Qed.
Lemma active_bottom evs tr o b : forallb (fun e => negb (ending e)) evs = true -> active tr = o ++ [OAll b] -> exists o', active (evs ++ tr) = o' ++ [OAll b].
Proof.
  intros F E. induction evs as [|e evs IH]; cbn [app forallb] in *; [eauto|]. apply andb_prop in F. destruct F as (Q & F). destruct (IH F) as (o' & E').
  destruct e; try discriminate; cbn [active]; rewrite E'; eauto.
  - destruct o' as [|[]]; cbn; eauto. + exists []. reflexivity. + exists (OPass sid before :: o'). reflexivity. + exists (OAll before :: o'). reflexivity.
    + exists (OTag tag true :: o'). reflexivity.
  - eexists (_ :: o'). reflexivity.
  - eexists (_ :: o'). reflexivity.
  - eexists (_ :: o'). reflexivity.
Qed.
Lemma active_tame evs tr o b : tame evs -> active tr = o ++ [OAll b] -> active (evs ++ tr) = [] \/ exists o', active (evs ++ tr) = o' ++ [OAll b].
Proof.
  intros (Q & F) E. destruct evs as [|e evs]; [right; eauto|]. cbn [tl app] in *. destruct (active_bottom _ _ _ _ F E) as (o' & E').
  destruct (ending e) eqn:En.
  - assert (active (e :: evs ++ tr) = tl (active (evs ++ tr))) as -> by (destruct e; discriminate || reflexivity). rewrite E'.
    destruct o'; cbn; eauto.
  - right. destruct (active_bottom (e :: evs) tr o b) as (o2 & E2); eauto. cbn. rewrite En. auto.
Qed.
Lemma clr_active evs tr : clr evs -> active (evs ++ tr) = active tr /\ pending (evs ++ tr) = pending tr /\ owned (evs ++ tr) = owned tr.
Proof. intros [-> |(e & -> & i & [-> | ->])]; auto. Qed.
Lemma ncb_pos k : 0 <= ncb k. Proof. unfold ncb, len. lia. Qed.
Lemma nfree_pos k : 0 <= nfree k. Proof. unfold nfree, len. lia. Qed.
Lemma all_cb_nil k : Forall (fun f => is_cb f = true) k -> ncb k = 0 -> k = [].
Proof. intros [|f l E F]; auto. rewrite ncb_cons, E. pose proof (ncb_pos l). lia. Qed.

Lemma zero_sane s' q' k evs : inv s' -> s_queue s' = Some q' -> q_refs q' = 0 -> s_stack s' = FAllLoop ByUnref :: k ->
  s_trace s' = EAll :: EZero :: evs -> calm (s_trace s') -> ncb k = depth evs -> owned evs + nfree k = 0 -> 0 <= owned evs -> sane s'.
Proof.
  intros (L1 & L2 & Ds & I) Eq Er Ek Et C D O Op. rewrite Ek, Et in *. open I.
  assert (k = []) as ->. { apply all_cb_nil; auto. rewrite D. apply (C [EAll] evs). reflexivity. }
  cbn in v_act0. assert (E3 : active evs = []). { inversion v_act0 as [|f x k' y M F1 E1 E2]. inversion F1. reflexivity. }
  unfold sane. rewrite Eq, Ek, Et. cbn [depth owned]. rewrite ncb_cons, nfree_cons. cbn [is_cb freef]. split; [lia|]. split; [lia|]. split; [lia|].
  right. split; auto. exists [], (FAllLoop ByUnref), (pending evs), []. cbn. rewrite E3. repeat split; auto. intros z; auto.
Qed.

Definition isnull (f : frame) : Prop := f = FNullCb.
Lemma none_step s a : s_queue s = None -> Forall isnull (s_stack s) -> s_srcs s = [] -> (forall c, a <> ACall c) ->
  exists s' evs, step s a = Ok s' /\ s_heap s' = s_heap s /\ s_queue s' = None /\ Forall isnull (s_stack s') /\ s_srcs s' = [] /\ s_trace s' = evs ++ s_trace s /\
    forallb quiet evs = true /\ pending (s_trace s') = pending (s_trace s) /\ depth (s_trace s') - depth (s_trace s) = ncb (s_stack s') - ncb (s_stack s).
Proof.
  destruct s as [h oq srcs nxt k tr]. flat. intros -> Fk -> Nc.
  assert (Same : exists s' evs, Ok (State h None [] nxt k tr) = Ok s' /\ s_heap s' = h /\ s_queue s' = None /\ Forall isnull (s_stack s') /\ s_srcs s' = [] /\ s_trace s' = evs ++ tr /\
    forallb quiet evs = true /\ pending (s_trace s') = pending tr /\ depth (s_trace s') - depth tr = ncb (s_stack s') - ncb k).
  { eexists _, []. split; [reflexivity|]. flat. repeat split; auto. lia. }
  assert (Null : forall c, exists s' evs, null_call (State h None [] nxt k tr) c = Ok s' /\ s_heap s' = h /\ s_queue s' = None /\ Forall isnull (s_stack s') /\ s_srcs s' = [] /\ s_trace s' = evs ++ tr /\
    forallb quiet evs = true /\ pending (s_trace s') = pending tr /\ depth (s_trace s') - depth tr = ncb (s_stack s') - ncb k).
  { intros c. destruct c; cbn [null_call]; auto. destruct destroy; auto. eexists _, [ENullDestroy data]. split; [reflexivity|]. flat. repeat split; auto.
    - constructor; auto. reflexivity.
    - rewrite ncb_cons. cbn [depth is_cb]. lia. }
  unfold step. flat. destruct k as [|f k].
  - destruct a as [|c|c| |sid]; auto. destruct (Nc c eq_refl).
  - inversion Fk as [|x l Ef Fl]; subst. unfold isnull in Ef. subst f. destruct a as [|c|c| |sid]; auto. { destruct (Nc c eq_refl). }
    eexists _, [EReturn]. split; [reflexivity|]. flat. repeat split; auto. rewrite ncb_cons. cbn [depth is_cb]. lia.
Qed.
Lemma none_sane s a s' : s_queue s = None -> sane s -> (forall c, a <> ACall c) -> step s a = Ok s' ->
  sane s' /\ exists evs, s_trace s' = evs ++ s_trace s /\ forallb quiet evs = true.
Proof.
  intros Eq Sa Nc St. unfold sane in Sa. rewrite Eq in Sa. destruct Sa as (D & O & Fk & Sr & Pe & Oz & Lv).
  destruct (none_step s a Eq Fk Sr Nc) as (s1 & evs & E & Hh & Hq & Hk & Hs & Ht & Q & Hp & Hd). rewrite St in E. injection E as <-.
  split; [|eauto]. unfold sane. rewrite Hq. split; [lia|]. rewrite Hp. rewrite Hh. rewrite Ht at 1 2. rewrite quiet_owned by auto. auto 10.
Qed.

Lemma step_sane s a s' : inv s -> sane s -> fair s a -> step s a = Ok s' -> inv s' -> calm (s_trace s') -> sane s'.
Proof.
  intros Iv Sa Fa St Iv' Ca. destruct (s_queue s) as [q|] eqn:Eq.
  2:{ eapply none_sane; eauto. intros c ->. destruct Fa as ((q & X & _) & _). congruence. }
  pose proof (step_eff _ _ _ _ Iv Eq St) as E. unfold sane in Sa. rewrite Eq in Sa. destruct Sa as (D & O & R & Md).
  pose proof (nfree_pos (s_stack s)) as Nf.
  destruct E as [q' evs Hq Hr Ht (T1 & T2) Hk Hd|q' evs e tag data r d Ea Hq Hr Hk He Ht|q' Ea Hq Hr Hk Ht|q' Ea Hq Hr Hn Hk Ht|q' Ea Hq Hr Hn Hk Ht|q' Ea Hq Hr Hk Ht
    |q' evs Hq Hr Hn Hk He Ht|q' evs k Hq Hr Hn Hk Hk' He Ht|evs Hq Hhp Hk Hs He Ht].
  - unfold sane. rewrite Hq. split; [lia|]. rewrite Ht, quiet_owned by auto. split; auto. rewrite (stk_nfree _ _ Hk), Hr. split; auto.
    destruct Md as [(P & K)|(Z0 & k1 & f & b & o & E1 & E2 & E3 & E4 & E5)].
    + left. split; auto. eapply stk_keep; eauto.
    + right. split; auto. destruct (stk_closing _ _ _ _ Hk E1 E2 E3) as (k1' & f' & X1 & X2 & X3).
      destruct (active_tame evs (s_trace s) o b) as [E|(o' & E)]; auto. { split; auto. }
      * exfalso. destruct Iv' as (L1 & L2 & Ds & I'). open I'. rewrite Ht, E, X1, filter_app in v_act0.
        inversion v_act0 as [Y|]. symmetry in Y. apply app_eq_nil in Y. destruct Y as (_ & Y). cbn in Y. destruct f'; discriminate.
      * exists k1', f', b, o'. repeat split; auto. intros x I. apply E5. revert I. apply quiet_pending; auto.
  - rewrite Ea in Fa. cbn in Fa. destruct Fa as ((q0 & X & P) & _). assert (q0 = q) by congruence. subst q0.
    unfold sane. rewrite Hq, Hk, Hr, Ht. assert (depth (evs ++ EAdd e :: s_trace s) = depth (s_trace s) /\ owned (evs ++ EAdd e :: s_trace s) = owned (s_trace s)) as (-> & ->).
    { destruct He as [-> |(i & ->)]; auto. }
    repeat split; auto. left. split; auto. destruct Md as [(_ & K)|(Z0 & _)]; auto; lia.
  - rewrite Ea in Fa. cbn in Fa. destruct Fa as ((q0 & X & P) & _). assert (q0 = q) by congruence. subst q0.
    unfold sane. rewrite Hq, Hk, Hr, Ht. cbn [depth owned]. split; [lia|]. split; [lia|]. split; [lia|]. left. destruct Md as [(_ & K)|(Z0 & _)]; [split; [lia|auto]|lia].
  - rewrite Ea in Fa. cbn in Fa. destruct Fa as ((q0 & X & P) & W). assert (q0 = q) by congruence. subst q0. specialize (W eq_refl).
    unfold sane. rewrite Hq, Hk, Hr, Ht. cbn [depth owned]. split; [lia|]. split; [lia|]. split; [lia|]. left. destruct Md as [(_ & K)|(Z0 & _)]; [split; [lia|auto]|lia].
  - rewrite Ea in Fa. cbn in Fa. destruct Fa as ((q0 & X & P) & W). assert (q0 = q) by congruence. subst q0. specialize (W eq_refl).
    eapply (zero_sane s' q' (s_stack s)); eauto; cbn [depth owned]; try lia.
  - rewrite Ea in Fa. cbn in Fa. destruct Fa as ((q0 & X & P) & W). assert (q0 = q) by congruence. subst q0. specialize (W eq_refl).
    unfold sane. rewrite Hq, Hk, Hr, Ht. cbn [depth owned]. rewrite ncb_cons, nfree_cons. cbn [is_cb freef]. repeat split; auto; try lia.
    left. destruct Md as [(_ & K)|(Z0 & _)]; [split; [lia|auto]|lia].
  - destruct (clr_active evs (s_trace s) He) as (A1 & A2 & A3). pose proof (nfree_pos (s_stack s')) as Nf'.
    unfold sane. rewrite Hq, Ht. cbn [depth owned]. rewrite clr_depth, A3 by auto. rewrite Hk in *. rewrite ncb_cons in D. rewrite nfree_cons in *. cbn [is_cb freef] in *.
    split; [lia|]. split; [lia|]. split; [lia|]. left. destruct Md as [(_ & K)|(Z0 & _)]; [|lia]. cbn in K. split; auto. lia.
  - destruct (clr_active evs (s_trace s) He) as (A1 & A2 & A3). rewrite Hk in *. rewrite ncb_cons in D. rewrite nfree_cons in *. cbn [is_cb freef] in *.
    eapply (zero_sane s' q' k); eauto; cbn [depth owned]; rewrite ?A3, ?clr_depth by auto; lia.
  - destruct (clr_active evs (s_trace s) He) as (A1 & A2 & A3). rewrite Hk in *. rewrite ncb_cons in D. cbn [is_cb] in D.
    destruct Md as [(_ & K)|(Z0 & k1 & f & b & o & E1 & E2 & E3 & E4 & E5)]; [discriminate|].
    assert (K0 : s_stack s' = []). { destruct k1 as [|x k1]; cbn in E1; injection E1; auto. intros _ <-. discriminate. }
    rewrite K0 in *. clear E1.
    destruct Iv as (L1 & L2 & Ds & I). open I. rewrite Hk in v_act0. cbn in v_act0. rewrite E4 in v_act0.
    assert (o = []) as ->. { destruct o as [|y o]; auto. cbn in v_act0. inversion v_act0 as [|? ? ? ? M F1]. inversion F1 as [X|]. destruct o; discriminate. }
    destruct Iv' as (L1' & L2' & Ds' & I'). pose proof (v_good _ _ _ _ _ _ _ _ _ I') as G. rewrite Ht in G. cbn in G. destruct G as (_ & (b' & o' & Ab & Np) & _).
    rewrite A1, E4 in Ab. cbn in Ab. injection Ab as <- <-.
    assert (P0 : pending (s_trace s) = []).
    { destruct (pending (s_trace s)) as [|e p] eqn:Ep; auto. exfalso. apply (Np e). apply E5; cbn; auto. rewrite A2. cbn; auto. }
    unfold sane. rewrite Hq, K0, Ht. cbn [depth owned pending]. rewrite clr_depth, A2, A3 by auto. split; [auto|]. split; [auto|]. split; [auto|].
    rewrite nfree_cons in R. cbn [freef] in R. pose proof (nfree_pos []). assert (L0 : L1 ++ L2 = []). { rewrite Eq, P0 in v_q0. destruct v_q0 as (_ & _ & Fe & _). inversion Fe; auto. }
    split; [|split; [auto|split; [lia|]]].
    2:{ intros x ix X. rewrite Hhp in X. rewrite Hk in v_frames0. inversion v_frames0 as [|? D0 ? Ds0 Hf0 Hk0]; subst. inversion Hk0; subst. cbn in Hf0. subst D0.
        assert (Y : In x ((L1 ++ L2) ++ concat [[]])) by (apply (v_live0 ltac:(congruence) x ix X)). rewrite L0 in Y. destruct Y. }
    apply Hs. rewrite Eq in v_q0. destruct v_q0 as (Ls & _ & Fe & _). rewrite P0 in Fe. inversion Fe as [E0|]. rewrite <- E0 in Ls. inversion Ls; auto.
Qed.

Lemma start_sane : sane start.
Proof. unfold sane. cbn. repeat split; auto; try lia. Qed.
Lemma sane_ok s a : inv s -> sane s -> fair s a -> exists s', step s a = Ok s' /\ inv s'.
Proof.
  intros Iv Sa Fa. destruct (step_fine s a Iv) as [|(F & N)]; auto. exfalso. unfold sane in Sa. rewrite N in Sa. destruct Sa as (_ & _ & Fk & Sr & _).
  destruct (none_step s a N Fk Sr) as (s1 & evs & E & _); [|congruence]. intros c ->. destruct Fa as ((q & X & _) & _). congruence.
Qed.
Lemma run_sane l : forall s, inv s -> sane s -> all_along (fun s a => fair s a /\ calmly s a) s l -> exists s', run s l = Ok s' /\ inv s' /\ sane s'.
Proof.
  induction l as [|a l IH]; cbn [run all_along]; intros s Iv Sa H. { exists s. auto. }
  destruct H as ((Fa & Ca) & H). destruct (sane_ok s a Iv Sa Fa) as (s' & E & Iv'). unfold calmly in Ca. rewrite E in *. cbn [bind]. apply IH; auto.
  exact (step_sane _ _ _ Iv Sa Fa E Iv' Ca).
Qed.

(* ---------------- the rule ---------------- *)
Definition held (k : list frame) : Prop := nfree k = 0 \/ exists k' f, k = k' ++ [f] /\ freef f = true /\ nfree k' = 0.
Definition mild (s : state) : Prop := (owned (s_trace s) = 0 -> held (s_stack s)) /\ calm (s_trace s).
Lemma nfree_app k k' : nfree (k ++ k') = nfree k + nfree k'.
Proof. unfold nfree, len. rewrite filter_app, app_length. lia. Qed.
Lemma held_stk k k' : stk k k' -> held k -> held k'.
Proof.
  intros St [N|(k1 & f & -> & Hf & N)]; [left; rewrite (stk_nfree _ _ St); auto|].
  remember (k1 ++ [f]) as k eqn:E. right. destruct St as [k0|g k0 P|g k0 P|g g' k0 A B]; subst.
  - eauto.
  - exists (g :: k1), f. rewrite nfree_cons. unfold plain in P. destruct (freef g); [discriminate|]. auto.
  - destruct k1 as [|x k1]; cbn in *; inversion E; subst.
    + unfold plain in P. rewrite Hf in P. discriminate.
    + exists k1, f. rewrite nfree_cons in N. unfold plain in P. destruct (freef x); [discriminate|]. auto.
  - destruct k1 as [|x k1]; cbn in *; inversion E; subst.
    + exists [], g'. rewrite <- A. auto.
    + exists (g' :: k1), f. rewrite nfree_cons in *. rewrite <- A. auto.
Qed.
Lemma held_top f k : freef f = true -> held (f :: k) -> k = [].
Proof.
  intros E [N|(k1 & g & Ek & Hf & N)].
  - rewrite nfree_cons, E in N. pose proof (nfree_pos k). lia.
  - destruct k1 as [|x k1]; cbn in Ek; inversion Ek; subst; auto. rewrite nfree_cons, E in N. pose proof (nfree_pos k1). lia.
Qed.
Lemma called s c s' : step s (ACall c) = Ok s' -> s_trace s' <> s_trace s -> forall f k, s_stack s = f :: k -> is_cb f = true.
Proof.
  intros E N f k Ek. unfold step in E. rewrite Ek in E. destruct f; auto; injection E as <-; exfalso; apply N; reflexivity.
Qed.
Lemma idle_nil s c s' : inv s -> sane s -> step s (ACall c) = Ok s' -> s_trace s' <> s_trace s -> depth (s_trace s) = 0 -> s_stack s = [].
Proof.
  intros (L1 & L2 & Ds & I) (D & _) E N Z0. pose proof (called _ _ _ E N) as Cb. apply all_cb_nil; [|lia]. open I.
  destruct (s_stack s) as [|f k]; auto. constructor; eauto.
Qed.
Lemma calm_cons e tr : calm tr -> (e = EZero -> depth tr = 0) -> calm (e :: tr).
Proof.
  intros C Z0 post pre E. destruct post as [|x post]; cbn in E; injection E.
  - intros <- ->. auto.
  - intros -> _. apply (C post). reflexivity.
Qed.
Lemma calm_app evs tr : calm tr -> ~ In EZero evs -> calm (evs ++ tr).
Proof.
  intros C N. induction evs as [|e evs IH]; cbn; auto. cbn in N. apply calm_cons; [apply IH; tauto|]. intros ->. tauto.
Qed.
Lemma quiet_nozero evs : forallb quiet evs = true -> ~ In EZero evs.
Proof. rewrite forallb_forall. intros F I. discriminate (F _ I). Qed.
Lemma clr_nozero evs : clr evs -> ~ In EZero evs.
Proof. intros H. apply quiet_nozero. apply (clr_tame _ H). Qed.
Ltac differs Ht := rewrite Ht; intros X; apply (f_equal (@length event)) in X; cbn [length] in X; lia.

Lemma null_held k : Forall isnull k -> held k.
Proof. intros F. left. induction F as [|f k E F IH]; auto. rewrite nfree_cons, IH, E. reflexivity. Qed.
Lemma careful_fair s a : sane s -> careful s a -> fair s a.
Proof.
  intros Sa Cf. destruct a as [|c| | |]; cbn; auto. destruct Cf as (O & Dr). unfold sane in Sa. destruct (s_queue s) as [q|].
  - split; [|auto]. exists q. split; auto. pose proof (nfree_pos (s_stack s)). lia.
  - destruct Sa as (_ & _ & _ & _ & _ & Z0 & _). lia.
Qed.
Lemma step_mild s a s' : inv s -> sane s -> mild s -> careful s a -> step s a = Ok s' -> mild s'.
Proof.
  intros Iv Sa (Hd & Ca) Cf St. pose proof (careful_fair s a Sa Cf) as Fa. destruct (s_queue s) as [q|] eqn:Eq.
  2:{ destruct (none_sane s a s' Eq Sa) as (Sa' & evs & Ht & Q); auto. { intros c ->. destruct Fa as ((q & X & _) & _). congruence. }
      split; [intros _; apply null_held|rewrite Ht; apply calm_app; auto; apply quiet_nozero; auto].
      destruct (none_step s a Eq) as (s1 & evs' & E & _ & _ & Hk & _). { unfold sane in Sa; rewrite Eq in Sa; tauto. } { unfold sane in Sa; rewrite Eq in Sa; tauto. }
      { intros c ->. destruct Fa as ((q & X & _) & _). congruence. } congruence. }
  pose proof (step_eff _ _ _ _ Iv Eq St) as E. pose proof Sa as Sa0. unfold sane in Sa. rewrite Eq in Sa. destruct Sa as (D & O & R & Md).
  pose proof (nfree_pos (s_stack s)) as Nf.
  destruct E as [q' evs Hq Hr Ht (T1 & T2) Hk Hdp|q' evs e tag data r d Ea Hq Hr Hk He Ht|q' Ea Hq Hr Hk Ht|q' Ea Hq Hr Hn Hk Ht|q' Ea Hq Hr Hn Hk Ht|q' Ea Hq Hr Hk Ht
    |q' evs Hq Hr Hn Hk He Ht|q' evs k Hq Hr Hn Hk Hk' He Ht|evs Hq Hhp Hk Hs He Ht].
  - split; rewrite Ht.
    + rewrite quiet_owned by auto. intros Z0. eapply held_stk; eauto.
    + apply calm_app; auto. apply quiet_nozero; auto.
  - split; rewrite Ht, ?Hk.
    + destruct He as [-> |(i & ->)]; auto.
    + apply calm_app; [apply calm_cons; auto; discriminate|]. destruct He as [-> |(i & ->)]; cbn; [tauto|]. intros [X|[]]; discriminate.
  - split; rewrite Ht, ?Hk; [cbn; intros; lia|]. apply calm_cons; auto. discriminate.
  - subst a. cbn in Cf. destruct Cf as (O1 & Dr). specialize (Dr eq_refl). split; rewrite Ht, ?Hk; [|apply calm_cons; auto; discriminate].
    cbn [owned]. intros Z0. destruct Dr as [?|Dz]; [lia|]. assert (Kn : s_stack s = []) by (apply (idle_nil _ _ _ Iv Sa0 St); auto; differs Ht). rewrite Kn. left. reflexivity.
  - subst a. cbn in Cf. destruct Cf as (O1 & Dr). specialize (Dr eq_refl). assert (Dz : depth (s_trace s) = 0) by (destruct Dr; [lia|auto]).
    split; rewrite Ht.
    + intros _. assert (Kn : s_stack s = []) by (apply (idle_nil _ _ _ Iv Sa0 St); auto; differs Ht). rewrite Hk, Kn. left. reflexivity.
    + apply calm_cons; [|discriminate]. apply calm_cons; [|auto]. apply calm_cons; [auto|discriminate].
  - subst a. cbn in Cf. destruct Cf as (O1 & Dr). specialize (Dr eq_refl). split; rewrite Ht.
    + cbn [owned]. intros Z0. destruct Dr as [?|Dz]; [lia|]. assert (Kn : s_stack s = []) by (apply (idle_nil _ _ _ Iv Sa0 St); auto; differs Ht). rewrite Hk, Kn. right. exists [], (FAllLoop ByFree). auto.
    + apply calm_cons; [|discriminate]. apply calm_cons; [auto|discriminate].
  - destruct (clr_active evs (s_trace s) He) as (A1 & A2 & A3). split; rewrite Ht.
    + cbn [owned]. rewrite A3. intros Z0. specialize (Hd Z0). rewrite Hk in Hd. apply held_top in Hd; auto. rewrite Hd. left. reflexivity.
    + apply calm_cons; [|discriminate]. apply calm_app; auto. apply clr_nozero; auto.
  - destruct (clr_active evs (s_trace s) He) as (A1 & A2 & A3). rewrite Hk in *. rewrite nfree_cons in *. cbn [freef] in R. pose proof (nfree_pos k).
    assert (Z0 : owned (s_trace s) = 0) by lia. specialize (Hd Z0). apply held_top in Hd; auto. subst k. split; rewrite Ht.
    + intros _. rewrite Hk'. left. reflexivity.
    + apply calm_cons; [|discriminate]. apply calm_cons.
      * apply calm_cons; [|discriminate]. apply calm_app; auto. apply clr_nozero; auto.
      * intros _. cbn [depth]. rewrite clr_depth, D by auto. reflexivity.
  - split; rewrite Ht.
    + intros _. destruct Md as [(_ & K)|(Z0 & _)]. { rewrite Hk in K. discriminate. }
      rewrite Hk, nfree_cons in *. cbn [freef] in *. left. lia.
    + apply calm_cons; [|discriminate]. apply calm_cons; [|discriminate]. apply calm_app; auto. apply clr_nozero; auto.
Qed.
Lemma start_mild : mild start.
Proof. split; cbn; [lia|]. intros post pre E. destruct post; discriminate. Qed.
Lemma run_mild l : forall s, inv s -> sane s -> mild s -> all_along careful s l -> exists s', run s l = Ok s' /\ inv s' /\ sane s' /\ mild s'.
Proof.
  induction l as [|a l IH]; cbn [run all_along]; intros s Iv Sa Mi H. { exists s. auto. }
  destruct H as (Cf & H). destruct (sane_ok s a Iv Sa (careful_fair _ _ Sa Cf)) as (s' & E & Iv'). rewrite E in *. cbn [bind].
  assert (Mi' : mild s') by exact (step_mild _ _ _ Iv Sa Mi Cf E). apply IH; auto.
  exact (step_sane _ _ _ Iv Sa (careful_fair _ _ Sa Cf) E Iv' (proj2 Mi')).
Qed.
