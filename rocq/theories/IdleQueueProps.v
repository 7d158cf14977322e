(* Properties of idle queues (gutil_idlequeue.c). An execution is any list of actions: calls from outside or from inside callbacks,
   callbacks returning, the main loop calling a source. Traces have the newest event first. *)
From Verif Require Import Base IdleQueueModel IdleQueueSpec IdleQueueProofs IdleQueueInv IdleQueueStep IdleQueueFair IdleQueuePass.

Lemma reach l s : run start l = Ok s -> inv s. Proof. exact (run_inv l start s start_inv). Qed.
Lemma reach_good l s : run start l = Ok s -> good (s_trace s).
Proof. intros R. destruct (reach l s R) as (? & ? & ? & []). auto. Qed.
Lemma split_in {A} (x : A) l : In x l -> exists a b, l = a ++ x :: b. Proof. apply in_split. Qed.

(* a long example: three items, the first adds a fourth one and cancels the second, everything is run, then the queue is freed *)
Definition x_prog : list action :=
  [ACall (CAdd 1 10 true true); ACall (CAdd 2 20 true true); ACall (CAdd 3 30 true false); ADispatch 1; AStep;
   ACall (CAdd 4 40 false true); ACall (CCancelTag 2); AReturn; AReturn; AReturn; AStep; AReturn; AStep;
   ADispatch 1; AStep; AReturn; AStep; ACall (CAdd 5 50 true true); ACall CFree; AStep; AReturn; AStep; AStep].

(* ================= C53: every item is finished exactly once ================= *)
(* An item is run at most once, before it is destroyed, never when cancelled, and its function is called with its data *)
Theorem C53_run_once l s post i d pre : run start l = Ok s -> s_trace s = post ++ ERun i d :: pre ->
  ~ has_run i pre /\ ~ has_destroyed i pre /\ ~ has_run i post /\ ~ In (ECancel i) (s_trace s) /\
  exists e, was_added e pre /\ e_id e = i /\ e_data e = d /\ e_run e = true.
Proof.
  intros R Et. pose proof (reach_good l s R) as G. rewrite Et in *. pose proof (good_split _ _ _ G) as ((t & e & Ep & Ia & E1 & E2 & E3) & Gp).
  assert (Nr : forall post' d' pre', good (post' ++ ERun i d' :: pre') -> ~ has_run i pre').
  { intros post' d' pre' G' (d0 & I). destruct (good_split _ _ _ G') as ((t' & e' & Ep' & _) & Gp'). subst pre'. cbn in I. destruct I as [I|I]; [discriminate|].
    destruct (left_once t' (ETake i) i Gp') as (A & _); auto. apply A. eapply run_taken; eauto. apply Gp'. }
  split; [eapply Nr; eauto|]. split; [|split; [|split]].
  - intros (d0 & I). subst pre. cbn in I. destruct I as [I|I]; [discriminate|]. destruct (left_once t (ETake i) i Gp) as (A & B); auto.
    destruct (destroyed_left t i d0); auto. apply Gp.
  - intros (d0 & I). apply in_split in I. destruct I as (p1 & p2 & ->). rewrite <- app_assoc in G. cbn in G. apply (Nr p1 d0 _ G).
    exists d. apply in_or_app. right. cbn. auto.
  - intros I. apply (left_one _ i G); auto. apply in_or_app. right. rewrite Ep. cbn. auto.
  - exists e. auto.
Qed.
Print Assumptions C53_run_once.

(* An item is destroyed at most once, with its data, after it was run or cancelled *)
Theorem C53_destroy_once l s post i d pre : run start l = Ok s -> s_trace s = post ++ EDestroy i d :: pre ->
  ~ has_destroyed i pre /\ ~ has_destroyed i post /\
  exists e, was_added e pre /\ e_id e = i /\ e_data e = d /\ e_destroy e = true /\ (In (ECancel i) pre \/ (e_run e = true -> In (ERun i d) pre)).
Proof.
  intros R Et. pose proof (reach_good l s R) as G. rewrite Et in *. pose proof (good_split _ _ _ G) as ((e & Ia & E1 & E2 & E3 & Nd & Or) & Gp).
  split; auto. split.
  - intros (d0 & I). apply in_split in I. destruct I as (p1 & p2 & ->). rewrite <- app_assoc in G. cbn in G.
    destruct (good_split _ _ _ G) as ((e' & _ & _ & _ & _ & Nd' & _) & _). apply Nd'. exists d. apply in_or_app. right. cbn. auto.
  - exists e. repeat split; auto. destruct Or as [(t & ->)|(_ & Or)]; [left; cbn; auto|right; auto].
Qed.
Print Assumptions C53_destroy_once.

Lemma not_run_if tr e : good tr -> In (EAdd e) tr -> e_run e = false -> ~ has_run (e_id e) tr.
Proof.
  intros G Ia Er (d & I). destruct (run_data _ _ _ G I) as (e' & Ia' & Ei & _ & Er'). rewrite (added_unique _ _ _ G Ia Ia') in Er; congruence.
Qed.
Lemma not_destroyed_if tr e : good tr -> In (EAdd e) tr -> e_destroy e = false -> ~ has_destroyed (e_id e) tr.
Proof.
  intros G Ia Er (d & I). destruct (destroy_data _ _ _ G I) as (e' & Ia' & Ei & _ & Er'). rewrite (added_unique _ _ _ G Ia Ia') in Er; congruence.
Qed.
Lemma finished s e : inv s -> (forall sid done i, ~ In (FRunCb sid done i) (s_stack s)) -> was_added e (s_trace s) ->
  (In e (pending (s_trace s)) /\ untouched e (s_trace s)) \/ ran e (s_trace s) \/ cancelled e (s_trace s).
Proof.
  intros (L1 & L2 & Ds & I) Nk Ia. open I. pose proof v_good0 as G.
  destruct (pending_split _ _ G Ia) as [Ip|[It|Ic]].
  - left. split; auto. destruct (pending_clean _ _ G Ip) as (A & B). split; auto. split; auto. split; intros (d & X).
    + apply A. eapply run_taken; eauto.
    + destruct (destroyed_left _ _ _ G X); auto.
  - right. left. destruct (v_take0 e Ia It) as (Hr & Hd). split; auto. split; [intros Ic; exact (left_one _ _ G It Ic)|]. split.
    + destruct (e_run e) eqn:E; auto. apply not_run_if; auto.
    + destruct (e_destroy e) eqn:E; [|apply not_destroyed_if; auto]. destruct (Hd eq_refl) as [|(sid & done & X)]; auto. destruct (Nk _ _ _ X).
  - right. right. split; auto. split; [intros It; exact (left_one _ _ G It Ic)|]. split.
    + intros (d & X). apply (left_one _ _ G (run_taken _ _ _ G X) Ic).
    + destruct (e_destroy e) eqn:E; auto. apply not_destroyed_if; auto.
Qed.

(* When nothing is in progress, every item which was added is still waiting and untouched, or was run and then destroyed,
   or was cancelled: destroyed and not run *)
Theorem C53_finished l s e : run start l = Ok s -> s_stack s = [] -> was_added e (s_trace s) ->
  (In e (pending (s_trace s)) /\ untouched e (s_trace s)) \/ ran e (s_trace s) \/ cancelled e (s_trace s).
Proof. intros R K. apply finished. { eapply reach; eauto. } rewrite K. auto. Qed.
Print Assumptions C53_finished.

(* When the queue has been freed nothing is left: every item was run or cancelled, and destroyed *)
Theorem C53_gone l s e : all_along (fun s a => fair s a /\ calmly s a) start l -> run start l = Ok s -> s_queue s = None -> was_added e (s_trace s) ->
  ran e (s_trace s) \/ cancelled e (s_trace s).
Proof.
  intros A R Q Ia. destruct (run_sane l start start_inv start_sane A) as (s' & R' & Iv & Sa). assert (s' = s) by congruence. subst s'.
  unfold sane in Sa. rewrite Q in Sa. destruct Sa as (_ & _ & Fk & _ & Pe & _ & _). rewrite Forall_forall in Fk.
  destruct (finished s e Iv) as [(Ip & _)|H]; auto. { intros sid done i X. specialize (Fk _ X). discriminate. } rewrite Pe in Ip. destruct Ip.
Qed.
Print Assumptions C53_gone.

Example C53_example : exists s, run start x_prog = Ok s /\ s_queue s = None /\
  rev (s_trace s) =
  [EAdd (Entry 0 1 10 true true); ESource 1; EAdd (Entry 1 2 20 true true); EAdd (Entry 2 3 30 true false);
   EPass 1; ETake 0; ERun 0 10; EAdd (Entry 3 4 40 false true); ETag 2; ECancel 1; EDestroy 1 20; EReturn; ETagEnd 2 true; EReturn; EDestroy 0 10; EReturn;
   ETake 2; ERun 2 30; EReturn; EPassEnd 1 true; EPass 1; ETake 3; EDestroy 3 40; EReturn; EPassEnd 1 false;
   EAdd (Entry 4 5 50 true true); ESource 2; EFree; EAll; ECancel 4; EDestroy 4 50; EReturn; EUnsource 2; EAllEnd; EZero; EAll; EAllEnd; EGone].
Proof. eexists. split; [vm_compute; reflexivity|]. split; reflexivity. Qed.

(* ================= C54: order ================= *)
Lemma pending_order tr : forall l x m y r, pending tr = l ++ x :: m ++ y :: r -> exists c b a, tr = c ++ EAdd y :: b ++ EAdd x :: a.
Proof.
  assert (Fl : forall (f : entry -> bool) L l x m y r, filter f L = l ++ x :: m ++ y :: r -> exists l' m' r', L = l' ++ x :: m' ++ y :: r').
  { intros f L l x m y r. revert L l.
    assert (One : forall L l z r, filter f L = l ++ z :: r -> exists l' r', L = l' ++ z :: r' /\ filter f r' = r).
    { induction L as [|w L IH]; cbn; intros l z r0 E; [destruct l; discriminate|]. destruct (f w).
      - destruct l as [|w' l]; cbn in E; injection E; intros.
        + subst. exists [], L. auto.
        + destruct (IH _ _ _ H) as (l' & r' & -> & F). exists (w :: l'), r'. auto.
      - destruct (IH _ _ _ E) as (l' & r' & -> & F). exists (w :: l'), r'. auto. }
    intros L l E. destruct (One _ _ _ _ E) as (l' & r' & -> & F). destruct (One _ _ _ _ F) as (m' & r2 & -> & _). eauto. }
  induction tr as [|ev tr IH]; intros l x m y r E.
  { destruct l; discriminate. }
  assert (Go : forall l' m' r', pending tr = l' ++ x :: m' ++ y :: r' -> exists c b a, ev :: tr = c ++ EAdd y :: b ++ EAdd x :: a).
  { intros l' m' r' E'. destruct (IH _ _ _ _ _ E') as (c & b & a & ->). exists (ev :: c), b, a. reflexivity. }
  destruct ev; cbn [pending] in E; try (eapply Go; eassumption); try (destruct (Fl _ _ _ _ _ _ _ E) as (l' & m' & r' & E'); eapply Go; eassumption).
  destruct (exists_last (l := y :: r)) as (r0 & z & Ez); [discriminate|]. rewrite Ez in E.
  assert (E' : pending tr ++ [e] = (l ++ x :: m ++ r0) ++ [z]) by (rewrite E; rewrite <- !app_assoc; cbn; rewrite <- app_assoc; reflexivity).
  apply app_inj_tail in E'. destruct E' as (E' & ->). destruct r0 as [|y0 r0].
  - cbn in Ez. injection Ez as -> ->. assert (Ix : In x (pending tr)) by (rewrite E'; apply in_or_app; cbn; auto).
    apply pending_added in Ix. apply in_split in Ix. destruct Ix as (b & a & ->). exists [], b, a. reflexivity.
  - cbn in Ez. injection Ez as <- Ez. eapply Go; eauto.
Qed.

(* Items are run in the order in which they were added *)
Theorem C54_order l s p3 j dj p2 i di p1 : run start l = Ok s -> s_trace s = p3 ++ ERun j dj :: p2 ++ ERun i di :: p1 ->
  exists ei ej c b a, e_id ei = i /\ e_id ej = j /\ s_trace s = c ++ EAdd ej :: b ++ EAdd ei :: a.
Proof.
  intros R Et. pose proof (reach_good l s R) as G. rewrite Et in G.
  destruct (good_split _ _ _ G) as ((tj & ej & Ep2 & Iaj & Ej & _) & G2).
  rewrite Ep2 in G2. pose proof (left_once tj (ETake j) j G2) as (NTj & NCj); auto.
  assert (Sfx : exists m, tj = m ++ ERun i di :: p1).
  { destruct p2 as [|x p2]; cbn in Ep2; injection Ep2; intros; [discriminate|]. eauto. }
  destruct Sfx as (m & Etj). rewrite Etj in G2, NTj, NCj.
  assert (G2' : good (ETake j :: (m ++ ERun i di :: p1))) by exact G2. destruct (good_split (ETake j :: m) _ _ G2') as ((ti & ei0 & Ep1 & Iai & Ei & _) & G1).
  subst p1. destruct G1 as ((ei & r & sid & bb & o & Epi & Eii & _) & Gi).
  assert (Tot : s_trace s = (p3 ++ ERun j dj :: ETake j :: m ++ [ERun i di; ETake i]) ++ ti).
  { rewrite Et, Ep2, Etj. rewrite <- !app_assoc. cbn. rewrite <- app_assoc. reflexivity. }
  assert (Iei : In (EAdd ei) ti) by (apply pending_added; rewrite Epi; cbn; auto).
  assert (Nij : i <> j). { intros ->. apply NTj. apply in_or_app. right. cbn. auto. }
  assert (Iaj' : In (EAdd ej) ((ETake j :: m ++ [ERun i di; ETake i]) ++ ti)).
  { rewrite Ep2, Etj in Iaj. cbn in *. rewrite <- app_assoc. cbn. auto. }
  apply in_app_or in Iaj'. destruct Iaj' as [I|I].
  - apply in_split in I. destruct I as (x1 & x2 & Ex). apply in_split in Iei. destruct Iei as (y1 & y2 & Ey).
    exists ei, ej, (p3 ++ ERun j dj :: x1), (x2 ++ y1), y2. split; auto. split; auto. rewrite Tot.
    replace (p3 ++ ERun j dj :: ETake j :: m ++ [ERun i di; ETake i]) with (p3 ++ ERun j dj :: (x1 ++ EAdd ej :: x2)).
    2:{ rewrite <- Ex. reflexivity. }
    rewrite Ey. rewrite <- !app_assoc. cbn. rewrite <- !app_assoc. reflexivity.
  - destruct (pending_split ti ej Gi I) as [Ip|[X|X]].
    + rewrite Epi in Ip. cbn in Ip. destruct Ip as [-> |Ip]; [congruence|]. apply in_split in Ip. destruct Ip as (l1 & l2 & ->).
      destruct (pending_order ti [] ei l1 ej l2) as (c & b & a & ->); auto.
      exists ei, ej, ((p3 ++ ERun j dj :: ETake j :: m ++ [ERun i di; ETake i]) ++ c), b, a. split; auto. split; auto. rewrite Tot, <- (app_assoc _ c). reflexivity.
    + exfalso. apply NTj. apply in_or_app. right. cbn. rewrite Ej in X. auto.
    + exfalso. apply NCj. apply in_or_app. right. cbn. rewrite Ej in X. auto.
Qed.
Print Assumptions C54_order.

(* What is run was in the queue when the innermost pass in progress began. An item added later waits. *)
Theorem C54_scope_partial l s post i d pre : run start l = Ok s -> s_trace s = post ++ ERun i d :: pre ->
  exists e sid b o, e_id e = i /\ active pre = OPass sid b :: o /\ In e b /\ was_added e pre /\
    exists during before, pre = during ++ EPass sid :: before /\ b = pending before.
Proof.
  intros R Et. pose proof (reach_good l s R) as G. rewrite Et in G. destruct (good_split _ _ _ G) as ((t & e0 & -> & _) & ((e & r & sid & b & o & Ep & Ei & Ea & Ib) & Gt)).
  exists e, sid, b, o. split; auto. split; [exact Ea|]. split; auto. split. { right. apply pending_added. rewrite Ep. cbn; auto. }
  assert (F : forall tr sid b, In (OPass sid b) (active tr) -> exists du be, tr = du ++ EPass sid :: be /\ b = pending be).
  { clear. induction tr as [|ev tr IH]; cbn; [tauto|]. intros sid b I.
    assert (Go : In (OPass sid b) (active tr) -> exists du be, ev :: tr = du ++ EPass sid :: be /\ b = pending be).
    { intros I'. destruct (IH _ _ I') as (du & be & -> & Eb). exists (ev :: du), be. auto. }
    assert (Tl : In (OPass sid b) (tl (active tr)) -> In (OPass sid b) (active tr)) by (destruct (active tr); cbn; auto).
    destruct ev; auto.
    - apply Go. destruct (active tr) as [|[]]; cbn in *; auto. destruct I as [I|I]; auto. discriminate.
    - cbn in I. destruct I as [E|I]; auto. injection E as <- <-. exists [], tr. auto.
    - cbn in I. destruct I as [E|I]; auto. discriminate.
    - cbn in I. destruct I as [E|I]; auto. discriminate. }
  apply F. cbn. rewrite Ea. cbn; auto.
Qed.
Print Assumptions C54_scope_partial.

(* Not so for all the passes in progress: the callback cancels everything, adds an item and runs the main loop;
   the item is run before the current pass is over *)
Theorem C54_refuted : exists l s post i d pre e sid during before_, run start l = Ok s /\ s_trace s = post ++ ERun i d :: pre /\
  e_id e = i /\ In (OPass sid (pending before_)) (active pre) /\ pre = during ++ EPass sid :: before_ /\ In (EAdd e) during.
Proof.
  exists [ACall (CAdd 1 10 true false); ADispatch 1; AStep; ACall CCancelAll; AStep; ACall (CAdd 2 20 true false); ADispatch 2; AStep].
  eexists. exists [], 1%nat, 20.
  exists [ETake 1; EPass 2; ESource 2; EAdd (Entry 1 2 20 true false); EAllEnd; EUnsource 1; EAll; ERun 0 10; ETake 0; EPass 1; ESource 1; EAdd (Entry 0 1 10 true false)].
  exists (Entry 1 2 20 true false), 1%nat.
  exists [ETake 1; EPass 2; ESource 2; EAdd (Entry 1 2 20 true false); EAllEnd; EUnsource 1; EAll; ERun 0 10; ETake 0], [ESource 1; EAdd (Entry 0 1 10 true false)].
  split; [vm_compute; reflexivity|]. split; [reflexivity|]. split; [reflexivity|]. split; [vm_compute; auto|]. split; [reflexivity|]. cbn; auto.
Qed.
Print Assumptions C54_refuted.

(* When callbacks return at once, a pass runs and destroys all the items that are waiting, in their order, and removes its source *)
Theorem C54_pass l s : run start l = Ok s -> s_queue s <> None -> s_stack s = [] -> pending (s_trace s) <> [] ->
  exists sid l' s', sources (s_trace s) = [sid] /\ forallb passive l' = true /\ run s (ADispatch sid :: l') = Ok s' /\ s_stack s' = [] /\
    s_trace s' = rev ([EPass sid] ++ concat (map pass_events (pending (s_trace s))) ++ [EPassEnd sid false]) ++ s_trace s /\
    pending (s_trace s') = [] /\ sources (s_trace s') = [].
Proof.
  intros R Q K P. destruct (s_queue s) as [q|] eqn:Eq; [|congruence]. pose proof (reach l s R) as Iv.
  destruct (pass_all s q Iv Eq K P) as (sid & l' & s' & Es & Pl & R' & T & K' & S'). exists sid, l', s'. repeat split; auto.
  - rewrite T. rewrite !rev_app_distr. cbn. rewrite <- app_assoc. reflexivity.
  - assert (Iv' : inv s') by (exact (run_inv _ _ _ Iv R')). destruct Iv' as (L1 & L2 & Ds & I). open I. rewrite T in v_good0. destruct v_good0 as ((b & o & _ & Ag & _) & _).
    rewrite T. cbn [pending]. destruct (pending _) eqn:E in Ag; auto. destruct Ag as (_ & Ag). discriminate Ag. discriminate.
  - assert (Iv' : inv s') by (exact (run_inv _ _ _ Iv R')). destruct Iv' as (L1 & L2 & Ds & I). open I. rewrite <- v_sources0, S'. reflexivity.
Qed.
Print Assumptions C54_pass.
Example C54_example : let l := [ACall (CAdd 1 10 true true); ACall (CAdd 2 20 true false); ACall (CAdd 0 30 false true)] in
  exists s, run start l = Ok s /\ s_queue s <> None /\ s_stack s = [] /\ map e_id (pending (s_trace s)) = [0; 1; 2]%nat.
Proof. eexists. split; [vm_compute; reflexivity|]. repeat split; discriminate. Qed.

(* ================= C55: no lost wake-up ================= *)
(* If items are waiting there is exactly one source, and it is ready to be called unless its pass is in progress *)
Theorem C55_wakeup l s : run start l = Ok s -> s_queue s <> None -> pending (s_trace s) <> [] ->
  exists sid, sources (s_trace s) = [sid] /\ (In (sid, false) (s_srcs s) \/ exists b, In (OPass sid b) (active (s_trace s))).
Proof.
  intros R Q P. destruct (s_queue s) as [q|] eqn:Eq; [|congruence]. destruct (reach l s R) as (L1 & L2 & Ds & I). open I. rewrite Eq in v_q0.
  destruct v_q0 as (_ & _ & Fe & So & Sn & _). assert (Ln : L1 ++ L2 <> []). { intros E. rewrite E in Fe. inversion Fe. congruence. }
  destruct So as [(S0 & _)|(S0 & b & Es & Hb)]; [destruct (Sn Ln S0)|]. exists (q_source q). rewrite <- v_sources0, Es. split; auto.
  destruct b; [right|left; cbn; auto]. destruct (Hb eq_refl) as (f & If & Ef).
  assert (If' : In f (filter nonnull (s_stack s))) by (apply filter_In; split; auto; destruct f; auto; discriminate).
  clear - v_act0 If' Ef. induction v_act0 as [|f' x fs xs M F IH]; [destruct If'|]. destruct If' as [-> |If'].
  - destruct f, x; cbn in *; try discriminate; try contradiction; try (destruct found; contradiction); injection Ef as <-; subst; eauto.
  - destruct (IH If') as (b & I). exists b. cbn. auto.
Qed.
Print Assumptions C55_wakeup.

Lemma callable_step s c : callable s -> step s (ACall c) = do_call s c.
Proof. unfold callable, step. destruct (s_stack s) as [|[] k]; auto; contradiction. Qed.
(* What each of the four functions adds: the last item of the queue, with the tag 0 if none is given and without a destroy function if none is given *)
Lemma add_call l s tag data (r d : bool) : run start l = Ok s -> s_queue s <> None -> callable s ->
  exists i s', step s (ACall (CAdd tag data r d)) = Ok s' /\ s_stack s' = s_stack s /\ pending (s_trace s') = pending (s_trace s) ++ [Entry i tag data r d] /\ (forall e, was_added e (s_trace s) -> e_id e <> i).
Proof.
  intros R Q K. pose proof (reach l s R) as Iv. destruct (step_fine s (ACall (CAdd tag data r d)) Iv) as [(s' & E & Iv')|(_ & N)]; [|contradiction].
  exists (length (s_heap s)), s'. split; [exact E|]. rewrite callable_step in E by auto. cbn [do_call] in E. unfold add, the_queue, idle_add in E. destruct s as [h oq srcs nxt k0 tr]. flat. cbn [s_queue] in Q. destruct oq as [q|]; [|congruence]. flat. cbn [bind] in E.
  assert (T : s_stack s' = k0 /\ (s_trace s' = EAdd (Entry (length h) tag data r d) :: tr \/ exists sid, s_trace s' = ESource sid :: EAdd (Entry (length h) tag data r d) :: tr)).
  { cbn -[get put Nat.eqb] in E. destruct (q_last q) as [a|]; [destruct (get _ a) as [it|]; [|discriminate]; cbn [bind] in E; destruct (put _ a _) as [h'|]; [|discriminate]|]; cbn in E; destruct (Nat.eqb _ _) in E; injection E as <-; cbn; split; eauto. }
  destruct T as (T1 & T2). split; [exact T1|]. destruct Iv' as (L1 & L2 & Ds & I'). destruct I'. split; [destruct T2 as [->|(sid & ->)]; reflexivity|].
  intros e A X. assert (G : good (EAdd (Entry (length h) tag data r d) :: tr)) by (destruct T2 as [T2|(sid & T2)]; rewrite T2 in *; [assumption|]; match goal with G : good (ESource _ :: _) |- _ => apply (good_split _ _ _ (G : good ([] ++ ESource _ :: _))) end).
  exact (proj1 G e A X).
Qed.
Theorem C53_add l s tag data (r d : bool) : run start l = Ok s -> s_queue s <> None -> callable s ->
  forall c e, In (c, e) [(c_add r data, fun i => Entry i 0 data r false); (c_add_full r data d, fun i => Entry i 0 data r d); (c_add_tag tag r data, fun i => Entry i tag data r false); (CAdd tag data r d, fun i => Entry i tag data r d)] ->
  exists i s', step s (ACall c) = Ok s' /\ s_stack s' = s_stack s /\ pending (s_trace s') = pending (s_trace s) ++ [e i] /\ (forall x, was_added x (s_trace s) -> e_id x <> i).
Proof. intros R Q K c e [X|[X|[X|[X|[]]]]]; injection X as <- <-; eapply add_call; eauto. Qed.
Print Assumptions C53_add.
Example C53_example_add : exists s, run start [ACall (CAdd 1 10 true true); ADispatch 1; AStep] = Ok s /\ s_queue s <> None /\ callable s /\ exists s', step s (ACall (c_add_full true 7 true)) = Ok s' /\ pending (s_trace s') = [Entry 1 0 7 true true].
Proof. eexists. split; [vm_compute; reflexivity|]. split; [discriminate|]. split; [exact I|]. eexists. split; [vm_compute; reflexivity|reflexivity]. Qed.
(* From a callback or from outside the main loop can always call a source that is ready, and this begins a pass *)
Theorem C55_ready l s sid : run start l = Ok s -> s_queue s <> None -> callable s ->
  In (sid, false) (s_srcs s) -> exists s', step s (ADispatch sid) = Ok s' /\ s_trace s' = EPass sid :: s_trace s.
Proof.
  intros R Q K I. pose proof (reach l s R) as Iv. destruct (step_fine s (ADispatch sid) Iv) as [(s' & E & _)|(_ & N)]; [|contradiction].
  exists s'. split; auto. assert (D : dispatch s sid = Ok s'). { unfold callable in K. unfold step in E. destruct (s_stack s) as [|[] k]; auto; contradiction. }
  unfold dispatch in D. assert (X : existsb (fun x => Nat.eqb (fst x) sid && negb (snd x)) (s_srcs s) = true).
  { apply existsb_exists. exists (sid, false). cbn. rewrite Nat.eqb_refl. auto. }
  rewrite X in D. cbn [the_queue s_queue emit] in D. unfold the_queue in D. cbn [s_queue emit] in D. destruct (s_queue s); [|discriminate]. cbn [bind] in D.
  destruct (mark _ _ _); [|discriminate]. injection D as <-. reflexivity.
Qed.
Print Assumptions C55_ready.

(* When nothing is waiting and nothing is in progress there is no source; there is never more than one, and none is removed which is not there *)
Theorem C55_no_source l s : run start l = Ok s -> s_queue s <> None ->
  (pending (s_trace s) = [] -> s_stack s = [] -> sources (s_trace s) = []) /\ (length (sources (s_trace s)) <= 1)%nat.
Proof.
  intros R Q. destruct (s_queue s) as [q|] eqn:Eq; [|congruence]. destruct (reach l s R) as (L1 & L2 & Ds & I). open I. rewrite Eq in v_q0.
  destruct v_q0 as (_ & _ & Fe & So & _ & Cv). rewrite <- v_sources0. split.
  - intros P K. rewrite P in Fe. inversion Fe as [E|]. rewrite K in Cv. cbn in Cv. destruct Cv as (_ & Cv).
    destruct So as [(_ & ->)|(S0 & _)]; auto. destruct S0. apply Cv; auto.
  - destruct So as [(_ & ->)|(_ & b & -> & _)]; cbn; lia.
Qed.
Print Assumptions C55_no_source.
Theorem C55_sources l s sid : run start l = Ok s ->
  ~ In (EBadUnsource sid) (s_trace s) /\
  (forall post pre, s_trace s = post ++ EUnsource sid :: pre -> In sid (sources pre)) /\
  (forall post pre, s_trace s = post ++ ESource sid :: pre -> sources pre = []) /\
  (forall post pre, s_trace s = post ++ EPass sid :: pre -> In sid (sources pre)).
Proof.
  intros R. pose proof (reach_good l s R) as G. split; [|repeat split; intros post pre E; rewrite E in G; apply good_split in G; apply G].
  intros I. apply in_split in I. destruct I as (post & pre & E). rewrite E in G. apply good_split in G. apply G.
Qed.
Print Assumptions C55_sources.
(* an item was added by a callback in a pass: the source stays and will be called again *)
Example C55_example : let l := [ACall (CAdd 1 10 true false); ADispatch 1; AStep; ACall (CAdd 2 20 true false); AReturn; AStep] in
  exists s, run start l = Ok s /\ s_queue s <> None /\ s_stack s = [] /\ map e_id (pending (s_trace s)) = [1%nat] /\ s_srcs s = [(1%nat, false)].
Proof. eexists. split; [vm_compute; reflexivity|]. repeat split; discriminate. Qed.

(* ================= C56: tags ================= *)
Theorem C56_contains l s post tag b pre : run start l = Ok s -> s_trace s = post ++ EContains tag b :: pre ->
  (b = true <-> exists e, In e (pending pre) /\ e_tag e = tag).
Proof. intros R E. pose proof (reach_good l s R) as G. rewrite E in G. apply good_split in G. apply G. Qed.
Print Assumptions C56_contains.

(* Both calls go ahead whenever the client is in control *)
Theorem C56_contains_call l s tag : run start l = Ok s -> s_queue s <> None -> callable s ->
  exists b s', step s (ACall (CContains tag)) = Ok s' /\ s_trace s' = EContains tag b :: s_trace s /\ s_stack s' = s_stack s.
Proof.
  intros R Q K. pose proof (reach l s R) as Iv. destruct (step_fine s (ACall (CContains tag)) Iv) as [(s' & E & _)|(_ & N)]; [|contradiction].
  pose proof E as E'. rewrite callable_step in E' by auto. cbn [do_call] in E'. unfold the_queue in E'. destruct (s_queue s) as [q|]; [|congruence]. cbn [bind] in E'.
  destruct (has_tag _ _ _ _) as [b|]; [|discriminate]. injection E' as <-. exists b. eexists. split; [exact E|]. auto.
Qed.
Print Assumptions C56_contains_call.

Lemma tag_first_trace s tag k s' : tag_first_end s tag k = Ok s' -> exists evs, clr evs /\ s_trace s' = ETagEnd tag true :: evs ++ s_trace s.
Proof.
  unfold tag_first_end, the_queue. destruct s as [h oq srcs nxt k0 tr]. cbn [s_queue]. destruct oq as [q|]; [|discriminate]. cbn [bind]. intros H.
  destruct (match q_first q with None => _ | Some _ => _ end) as [s1|] eqn:E; [|discriminate]. cbn [bind] in H. injection H as <-.
  apply clear_if_eff in E. destruct E as (q' & evs & -> & _ & C & _). exists evs. auto.
Qed.
Lemma tag_trace s tag s' : cancel_tag s tag = Ok s' -> s_trace s' = ETagEnd tag false :: ETag tag :: s_trace s \/
  exists i evs, s_trace s' = evs ++ ECancel i :: ETag tag :: s_trace s /\
    ((exists d, evs = [EDestroy i d]) \/ (exists e0, clr e0 /\ evs = ETagEnd tag true :: e0)).
Proof.
  unfold cancel_tag, the_queue. destruct s as [h oq srcs nxt k0 tr]. flat. destruct oq as [q|]; [|discriminate]. flat. intros H.
  IdleQueueFair.break1 H; [IdleQueueFair.break1 H; [|discriminate]|injection H as <-; left; reflexivity].
  IdleQueueFair.break1 H.
  - IdleQueueFair.break1 H; [|discriminate]. right. IdleQueueFair.break1 H.
    + injection H as <-. eexists n, [EDestroy n _]. split; [reflexivity|]. eauto.
    + IdleQueueFair.break1 H; [|discriminate]. apply tag_first_trace in H. destruct H as (evs & C & T). exists n, (ETagEnd tag true :: evs). split; [exact T|]. eauto.
  - IdleQueueFair.break1 H; [|discriminate]. destruct v0 as [(pr, b)|]; [right|injection H as <-; left; reflexivity].
    do 4 (IdleQueueFair.break1 H; [|discriminate]).
    assert (C0 : clr []) by (left; auto).
    destruct (it_next v0); IdleQueueFair.flat_in H; (IdleQueueFair.break1 H; [injection H as <-|IdleQueueFair.break1 H; [injection H as <-|discriminate]]).
    + eexists b, [EDestroy b _]. split; [reflexivity|]. eauto.
    + exists b, [ETagEnd tag true]. split; [reflexivity|]. eauto.
    + eexists b, [EDestroy b _]. split; [reflexivity|]. eauto.
    + exists b, [ETagEnd tag true]. split; [reflexivity|]. eauto.
Qed.

(* If items with the tag are waiting, exactly the first of them is removed, the others stay in their order, and the item is destroyed
   (which makes it a call in progress) or the function returns TRUE at once. Otherwise it returns FALSE and does nothing. *)
Theorem C56_cancel_call l s tag : run start l = Ok s -> s_queue s <> None -> callable s ->
  exists s', step s (ACall (CCancelTag tag)) = Ok s' /\
    (((forall e, In e (pending (s_trace s)) -> e_tag e <> tag) /\ s_trace s' = ETagEnd tag false :: ETag tag :: s_trace s /\ pending (s_trace s') = pending (s_trace s)) \/
     (exists a e b, pending (s_trace s) = a ++ e :: b /\ e_tag e = tag /\ (forall x, In x a -> e_tag x <> tag) /\ pending (s_trace s') = a ++ b /\
        exists evs, s_trace s' = evs ++ ECancel (e_id e) :: ETag tag :: s_trace s /\
          (if e_destroy e then evs = [EDestroy (e_id e) (e_data e)] else exists e0, evs = ETagEnd tag true :: e0 /\ forall x, In x e0 -> exists sid, x = EUnsource sid))).
Proof.
  intros R Q K. pose proof (reach l s R) as Iv. destruct (step_fine s (ACall (CCancelTag tag)) Iv) as [(s' & E & Iv')|(_ & N)]; [|contradiction].
  exists s'. split; auto. rewrite callable_step in E by auto. cbn [do_call] in E. destruct Iv' as (L1 & L2 & Ds & I). open I.
  destruct (tag_trace _ _ _ E) as [T|(i & evs & T & Hev)]; rewrite T in *.
  - left. destruct v_good0 as ((_ & Ln) & _). split; [exact (Ln eq_refl)|]. auto.
  - right. pose proof (good_split _ _ _ v_good0) as (Lc & Gc). cbn [legal] in Lc.
    destruct Lc as [(tag' & o & a & e & b & Ea & Ep & Ei & Et & Nb)|(e & r & b & o & _ & _ & Ea & _)]; [|cbn in Ea; discriminate].
    cbn [active] in Ea. injection Ea as <- _. cbn [pending] in Ep.
    assert (Nd : NoDup (map e_id (a ++ e :: b))). { rewrite <- Ep. apply (pending_nodup _ (proj2 Gc)). }
    assert (Pe : pending (evs ++ ECancel i :: ETag tag :: s_trace s) = a ++ b).
    { assert (pending (evs ++ ECancel i :: ETag tag :: s_trace s) = pending (ECancel i :: ETag tag :: s_trace s)) as ->.
      { destruct Hev as [(d & ->)|(e0 & C & ->)]; [reflexivity|]. cbn [app pending]. apply clr_active; auto. }
      cbn [pending]. rewrite Ep, <- Ei. apply filter_mid; auto. }
    assert (Iae : In (EAdd e) (s_trace s)) by (apply pending_added; rewrite Ep; apply in_or_app; cbn; auto).
    exists a, e, b. repeat split; auto. exists evs. split; [now rewrite Ei|].
    destruct Hev as [(d & ->)|(e0 & C & ->)].
    + destruct v_good0 as ((e1 & Ia1 & Ei1 & Ed1 & Edd & _) & _). cbn in Ia1. destruct Ia1 as [X|[X|Ia1]]; try discriminate.
      assert (e1 = e) by (apply (added_unique _ _ _ (proj2 Gc) Ia1 Iae); congruence). subst e1. rewrite Edd. congruence.
    + destruct (e_destroy e) eqn:Ed.
      * exfalso. specialize (v_cancel0 e). cbn in v_cancel0. assert (X : In (EDestroy (e_id e) (e_data e)) (ETagEnd tag true :: e0 ++ ECancel i :: ETag tag :: s_trace s)).
        { apply v_cancel0; auto. { right. apply in_or_app. cbn. auto. } right. apply in_or_app. cbn. rewrite Ei. auto. }
        assert (Y : In (EDestroy (e_id e) (e_data e)) (s_trace s)).
        { cbn in X. destruct X as [X|X]; [discriminate|]. apply in_app_or in X. cbn in X. destruct C as [-> |(z & -> & w & [-> | ->])]; cbn in X; intuition discriminate. }
        destruct (destroyed_left _ _ _ (proj2 Gc) Y) as [Z|Z].
        -- destruct (pending_clean _ e (proj2 Gc)) as (A & B); auto. rewrite Ep. apply in_or_app; cbn; auto.
        -- destruct (pending_clean _ e (proj2 Gc)) as (A & B); auto. rewrite Ep. apply in_or_app; cbn; auto.
      * exists e0. split; auto. intros x Ix. destruct C as [-> |(z & -> & w & [-> | ->])]; cbn in Ix; [tauto| |].
        -- destruct Ix as [<-|[]]. eauto.
        -- cbn in v_good0. destruct v_good0 as (_ & [] & _).
Qed.
Print Assumptions C56_cancel_call.

(* Once it returns, the result tells whether an item was cancelled; with FALSE no item with the tag is waiting *)
Theorem C56_result l s post tag b pre : run start l = Ok s -> s_trace s = post ++ ETagEnd tag b :: pre ->
  (exists o, active pre = OTag tag b :: o) /\ (b = false -> forall e, In e (pending pre) -> e_tag e <> tag).
Proof. intros R E. pose proof (reach_good l s R) as G. rewrite E in G. apply good_split in G. apply G. Qed.
Print Assumptions C56_result.
Example C56_example : let l := [ACall (CAdd 1 10 true true); ACall (CAdd 2 20 true true); ACall (CAdd 3 30 true true); ACall (CAdd 2 40 true true)] in
  exists s, run start l = Ok s /\ s_queue s <> None /\ callable s /\ map e_tag (pending (s_trace s)) = [1; 2; 3; 2] /\
    exists s', step s (ACall (CCancelTag 2)) = Ok s' /\ map e_id (pending (s_trace s')) = [0; 2; 3]%nat /\ hd_error (s_trace s') = Some (EDestroy 1 20).
Proof. eexists. split; [vm_compute; reflexivity|]. split; [discriminate|]. split; [exact Coq.Init.Logic.I|]. split; [reflexivity|]. eexists. split; [vm_compute; reflexivity|]. auto. Qed.

(* ================= C57: memory safety ================= *)
(* Whatever the client does, nothing goes wrong as long as the queue has not been freed: no freed item is accessed, no item is freed twice,
   no list is circular *)
Theorem C57_only_queue_partial l f : run start l = Fail f ->
  f = UseAfterFree /\ exists l1 a l2 s, l = l1 ++ a :: l2 /\ run start l1 = Ok s /\ s_queue s = None.
Proof.
  assert (H : forall l s, inv s -> run s l = Fail f -> f = UseAfterFree /\ exists l1 a l2 s1, l = l1 ++ a :: l2 /\ run s l1 = Ok s1 /\ s_queue s1 = None).
  { clear l. induction l as [|a l IH]; cbn [run]; intros s Iv E; [discriminate|]. destruct (step_fine s a Iv) as [(s1 & E1 & Iv1)|(E1 & N)]; rewrite E1 in E; cbn [bind] in E.
    - destruct (IH s1 Iv1 E) as (Ef & l1 & b & l2 & s2 & -> & R & N). split; auto. exists (a :: l1), b, l2, s2. cbn [run app]. rewrite E1. auto.
    - injection E as <-. split; auto. exists [], a, l, s. auto. }
  apply H. exact start_inv.
Qed.
Print Assumptions C57_only_queue_partial.

(* If the client calls the queue only while it or a call in progress has a reference, drops only its own references, and the last
   reference does not go away while a callback is in progress, then nothing goes wrong *)
Theorem C57_safe_partial l : all_along (fun s a => fair s a /\ calmly s a) start l -> exists s, run start l = Ok s.
Proof. intros A. destruct (run_sane l start start_inv start_sane A) as (s & R & _). eauto. Qed.
Print Assumptions C57_safe_partial.

(* A simple rule which is enough: call the queue with a reference of your own, and do not give up the last one in a callback *)
Theorem C57_careful_partial l : all_along careful start l -> exists s, run start l = Ok s.
Proof. intros A. destruct (run_mild l start start_inv start_sane start_mild A) as (s & R & _). eauto. Qed.
Print Assumptions C57_careful_partial.

(* Owning a reference whenever the API is called is not enough: the last reference is dropped in a callback of the queue *)
Theorem C57_refuted : exists l, all_along owner start l /\ run start l = Fail UseAfterFree.
Proof.
  exists [ACall (CAdd 1 10 true false); ADispatch 1; AStep; ACall CUnref; AStep; AReturn; AStep]. split; [|vm_compute; reflexivity].
  vm_compute. repeat split; discriminate.
Qed.
Print Assumptions C57_refuted.
(* the rule holds for a client which uses a reference of its own in a callback *)
Example C57_example : all_along careful start
  [ACall CRef; ACall (CAdd 1 10 true true); ACall (CAdd 2 20 true true); ADispatch 1; AStep; ACall CUnref; ACall (CAdd 3 30 true true); AReturn; AReturn; AStep; AReturn; AReturn;
   AStep; ACall CFree; AStep; AReturn; AStep; AStep].
Proof. lazy -[Z.le]. repeat split; try (intros; lia); try discriminate; intros _; first [right; reflexivity|left; lia]. Qed.
Example C57_example_fair : all_along (fun s a => fair s a /\ calmly s a) start x_prog.
Proof.
  lazy -[calm Z.le Z.lt]. assert (N : forall tr, ~ In EZero tr -> calm tr) by (intros tr X post pre ->; destruct X; apply in_or_app; cbn; auto).
  assert (Z : forall e tr, calm tr -> (e = EZero -> depth tr = 0) -> calm (e :: tr)) by exact calm_cons.
  repeat match goal with
  | |- _ /\ _ => split
  | |- True => exact Coq.Init.Logic.I
  | |- calm _ => first [apply N; cbn; intuition discriminate | repeat (apply Z; [|try discriminate; intros _; reflexivity]); apply N; cbn; intuition discriminate]
  | |- _ -> _ => intros _; cbn; lia
  | |- exists q, _ => eexists; split; [reflexivity|cbn; lia]
  end.
Qed.

(* ================= C81: cancel_all and passes ================= *)
(* What was waiting when gutil_idle_queue_cancel_all was called does not wait any more when it returns, whatever callbacks do *)
Theorem C81_cancel_all l s post pre : run start l = Ok s -> s_trace s = post ++ EAllEnd :: pre ->
  exists b o, active pre = OAll b :: o /\ forall e, In e b -> ~ In e (pending pre).
Proof. intros R E. pose proof (reach_good l s R) as G. rewrite E in G. apply good_split in G. apply G. Qed.
Print Assumptions C81_cancel_all.
(* Same for a pass, and it stays scheduled exactly if something is waiting *)
Theorem C81_pass l s post sid again pre : run start l = Ok s -> s_trace s = post ++ EPassEnd sid again :: pre ->
  exists b o, active pre = OPass sid b :: o /\ (forall e, In e b -> ~ In e (pending pre)) /\ (again = true <-> pending pre <> []).
Proof.
  intros R E. pose proof (reach_good l s R) as G. rewrite E in G. apply good_split in G. destruct G as ((b & o & A & B & C) & _). exists b, o. auto.
Qed.
Print Assumptions C81_pass.
(* gutil_idle_queue_cancel_all cancels only what was waiting when it was called, in the order of addition *)
Theorem C81_only_those l s post i pre b o : run start l = Ok s -> s_trace s = post ++ ECancel i :: pre -> active pre = OAll b :: o ->
  exists e r, pending pre = e :: r /\ e_id e = i /\ In e b.
Proof.
  intros R E A. pose proof (reach_good l s R) as G. rewrite E in G. apply good_split in G.
  destruct G as ([(tag & o' & a & e & r & X & _)|(e & r & b' & o' & Ep & Ei & X & Ib)] & _); rewrite A in X; inversion X; subst. eauto.
Qed.
Print Assumptions C81_only_those.
Example C81_example : exists s, run start x_prog = Ok s /\ exists post pre, s_trace s = post ++ EAllEnd :: pre /\ exists e, active pre = [OAll [e]] /\ e_data e = 50.
Proof.
  eexists. split; [vm_compute; reflexivity|]. eexists [EGone; EAllEnd; EAll; EZero], _. split; [reflexivity|]. eexists. split; reflexivity.
Qed.

(* ================= C82: the end of the queue ================= *)
(* When the queue has gone, no source which would call it is left, nothing is waiting, and all items have been freed *)
Theorem C82_gone l s : all_along (fun s a => fair s a /\ calmly s a) start l -> run start l = Ok s -> s_queue s = None ->
  s_srcs s = [] /\ pending (s_trace s) = [] /\ sources (s_trace s) = [] /\ owned (s_trace s) = 0 /\ (forall a it, nth_error (s_heap s) a <> Some (Some it)).
Proof.
  intros A R Q. destruct (run_sane l start start_inv start_sane A) as (s' & R' & Iv & Sa). assert (s' = s) by congruence. subst s'.
  unfold sane in Sa. rewrite Q in Sa. destruct Sa as (_ & _ & _ & Sr & Pe & Oz & Lv). destruct Iv as (L1 & L2 & Ds & I). open I. rewrite <- v_sources0, Sr. auto.
Qed.
Print Assumptions C82_gone.
(* It goes away when the last reference does: while the client has a reference it is there, and it is gone when the client has none and nothing is in progress *)
Theorem C82_lifetime l s : all_along (fun s a => fair s a /\ calmly s a) start l -> run start l = Ok s ->
  (0 < owned (s_trace s) -> s_queue s <> None) /\ (owned (s_trace s) = 0 -> s_stack s = [] -> s_queue s = None).
Proof.
  intros A R. destruct (run_sane l start start_inv start_sane A) as (s' & R' & Iv & Sa). assert (s' = s) by congruence. subst s'.
  unfold sane in Sa. destruct Sa as (_ & O & Sa). destruct (s_queue s) as [q|]; [|split; [|auto]; destruct Sa as (_ & _ & _ & Oz & _); lia].
  split; [discriminate|]. intros Z0 K. rewrite K, Z0 in Sa. destruct Sa as (Er & [(P & _)|(_ & k & f & b & o & E & _)]); [cbn in Er; lia|]. destruct k; discriminate.
Qed.
Print Assumptions C82_lifetime.
Example C82_example : exists s, run start x_prog = Ok s /\ s_queue s = None.
Proof. eexists. split; [vm_compute; reflexivity|]. reflexivity. Qed.
