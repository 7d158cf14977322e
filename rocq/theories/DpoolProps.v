(* What holds of the default pools of threads *)
From Verif Require Import Base DpoolModel DpoolSpec DpoolProofs DpoolTrace DpoolSource DpoolOwn DpoolPass.

(* ---------------- deciding the hypotheses of the examples ---------------- *)
Fixpoint alongb (P : state -> nat * action -> bool) (s : state) (l : list (nat * action)) : bool :=
  match l with [] => true | a :: l => P s a && match step s a with Ok s => alongb P s l | Fail _ => true end end.
Lemma along_ok (P : state -> nat * action -> Prop) (Q : state -> nat * action -> bool) : (forall s a, Q s a = true -> P s a) -> forall l s, alongb Q s l = true -> all_along P s l.
Proof.
  intros H l. induction l as [|a l IH]; intros s X; cbn in *; auto. apply andb_true_iff in X. destruct X as (X & Y). split; auto. destruct (step s a); auto.
Qed.
Definition fairb (s : state) (x : nat * action) : bool :=
  match x with (_, ACall (CUnref p)) => 1 <=? owned p (s_trace s) | (_, AExit _ n) => Nat.leb 4 n | _ => true end.
Lemma fair_ok s a : fairb s a = true -> fair s a.
Proof. destruct a as (t & [| |[]| | | | | |b n]); cbn [fair fairb]; auto; [apply Z.leb_le|apply Nat.leb_le]. Qed.
Definition plainb (s : state) (x : nat * action) : bool := match x with (_, APush c) => Nat.eqb c 0 | _ => true end.
Lemma plain_ok s a : plainb s a = true -> plain s a.
Proof. destruct a as (t & []); cbn; auto. apply Nat.eqb_eq. Qed.
Definition homeb (s : state) (x : nat * action) : bool :=
  match x with
  | (t, ADispatch c _) => match c with 0%nat => Nat.eqb t 0 | S _ => match nth_error (s_threads s) t with Some th => Nat.eqb (t_ctx th) c | None => false end end
  | _ => true
  end.
Lemma home_ok s a : homeb s a = true -> home s a.
Proof. destruct a as (t & []); cbn; auto. destruct c; [apply Nat.eqb_eq|]. destruct (nth_error (s_threads s) t) as [th|]; [|discriminate]. intros X. apply Nat.eqb_eq in X. eauto. Qed.
Definition newb (t p : nat) (e : event) : bool := match e with ENew u r => Nat.eqb u t && Nat.eqb r p | _ => false end.
Definition ownb (s : state) (x : nat * action) : bool :=
  match x with
  | (t, ADispatch c id) => forallb (fun e => match e with ESource c' id' (Some p) => negb (is_pair c id (c', id')) || existsb (newb t p) (s_trace s) | _ => true end) (s_trace s)
  | (_, AClose c) => forallb (fun e => match e with ESource c' _ (Some _) => negb (Nat.eqb c' c) | _ => true end) (s_trace s)
  | _ => true
  end.
Lemma sched_source p c id tr : In (c, id) (scheduled p tr) -> In (ESource c id (Some p)) tr.
Proof.
  induction tr as [|e tr IH]; cbn; auto. destruct e; auto; try (rewrite filter_In; tauto). destruct o as [x|]; auto. destruct (Nat.eqb_spec x p) as [->|]; auto. rewrite in_app_iff. intros [H|[H|[]]]; auto. injection H as -> ->. auto.
Qed.
Lemma own_ok s a : ownb s a = true -> own s a.
Proof.
  destruct a as (t & []); cbn; auto; intros X.
  - intros p H. apply sched_source in H. rewrite forallb_forall in X. apply X in H. unfold is_pair in H. cbn in H. rewrite !Nat.eqb_refl in H. cbn in H. apply existsb_exists in H. destruct H as (e & E & F). destruct e; try discriminate. cbn in F. apply andb_true_iff in F. destruct F as (F & G). apply Nat.eqb_eq in F, G. subst. auto.
  - intros p id H. apply sched_source in H. rewrite forallb_forall in X. apply X in H. rewrite Nat.eqb_refl in H. discriminate.
Qed.

(* ---------------- nothing goes wrong with the memory ---------------- *)
(* Whatever the threads and the main loops do and in whatever order they do it, no pool is used when it has been freed and none is freed twice *)
Theorem C94_safe : forall selfs n l, all_along fair (start selfs n) l -> exists s, run (start selfs n) l = Ok s.
Proof. intros selfs n l F. destruct (run_ok l _ (start_inv selfs n) F) as (s & R & _). eauto. Qed.
Print Assumptions C94_safe.

(* ---------------- each thread has a pool of its own ---------------- *)
Lemma new_of tr t p : good tr -> In (EDefault t p) tr -> In (ENew t p) tr.
Proof. intros G H. apply in_split in H. destruct H as (post & pre & ->). apply good_at in G. destruct G as (G & _). apply in_app_iff. cbn. cbn in G. auto. Qed.
Lemma jk_of selfs n l s : all_along fair (start selfs n) l -> run (start selfs n) l = Ok s -> Inv None s /\ JK s /\ SC s /\ GN s.
Proof.
  intros F R. pose proof (start_inv selfs n) as I0. split; [|split; [|split]]; [eapply run_inv; eauto|eapply run_jk; eauto using start_jk|eapply run_sc; eauto using start_sc|eapply gn_run; eauto using gn_start].
Qed.
Lemma still s t p : J (view s) (s_threads s) (s_trace s) -> In (EDefault t p) (s_trace s) -> ~ In (EExit t) (s_trace s) -> exists th, nth_error (s_threads s) t = Some th /\ t_life th = Alive /\ t_slot th = Some p.
Proof.
  intros Jv D N. pose proof (new_of _ _ _ (j_good _ _ _ Jv) D) as Nw. destruct (j_new _ _ _ Jv _ _ Nw) as (_ & th & E & U). pose proof (j_exit _ _ _ Jv t th E) as X. assert (A : t_life th = Alive) by (destruct (t_life th); tauto). exists th. split; auto. split; auto. eapply (j_keep _ _ _ Jv); eauto.
Qed.
(* The same pool each time, until the thread begins to exit *)
Theorem C94_same : forall selfs n l s t p p' post pre, all_along fair (start selfs n) l -> run (start selfs n) l = Ok s -> s_trace s = post ++ EDefault t p' :: pre -> In (EDefault t p) pre -> ~ In (EExit t) pre -> p' = p.
Proof.
  intros selfs n l s t p p' post pre F R Tr H N. destruct (jk_of _ _ _ _ F R) as (_ & (Jv & _) & _). pose proof (j_good _ _ _ Jv) as G. rewrite Tr in G. apply good_at in G. destruct G as (G1 & G2). eapply (good_one pre); eauto. eapply new_of; eauto.
Qed.
Print Assumptions C94_same.
(* Two threads never get the same pool *)
Theorem C94_own : forall selfs n l s t t' p, all_along fair (start selfs n) l -> run (start selfs n) l = Ok s -> In (EDefault t p) (s_trace s) -> In (EDefault t' p) (s_trace s) -> t = t'.
Proof.
  intros selfs n l s t t' p F R A B. destruct (jk_of _ _ _ _ F R) as (_ & (Jv & _) & _). pose proof (j_good _ _ _ Jv) as G. eapply good_new; eauto using new_of.
Qed.
Print Assumptions C94_own.
(* The pool exists until the thread begins to exit, and as long as the client has references to it *)
Theorem C94_alive : forall selfs n l s p, all_along fair (start selfs n) l -> run (start selfs n) l = Ok s ->
  (exists t, In (EDefault t p) (s_trace s) /\ ~ In (EExit t) (s_trace s)) \/ 1 <= owned p (s_trace s) -> ~ In (EGone p) (s_trace s).
Proof.
  intros selfs n l s p F R H. destruct (jk_of _ _ _ _ F R) as (I & (Jv & _) & _ & G). pose proof (j_good _ _ _ Jv) as Gd. destruct H as [(t & D & N)|H].
  - intros X. apply (G p) in X. destruct (still _ _ _ Jv D N) as (th & E & _ & Sl). destruct (slot_live _ _ _ _ p I E Sl) as (q & Q & _). congruence.
  - intros X. apply (G p) in X. pose proof (i_refs _ _ I p) as Q. rewrite X in Q. lia.
Qed.
Print Assumptions C94_alive.

(* ---------------- the items ---------------- *)
Lemma destructions_app i a b : destructions i (a ++ b) = (destructions i a + destructions i b)%nat.
Proof. induction a as [|e a IH]; cbn; auto. destruct e; auto. destruct (Nat.eqb _ _); lia. Qed.
Lemma destroyed_pos i tr : destroyed i tr -> (1 <= destructions i tr)%nat.
Proof. intros (t & p & d & H). apply in_split in H. destruct H as (a & b & ->). rewrite destructions_app. cbn. rewrite Nat.eqb_refl. lia. Qed.
Lemma pos_destroyed i tr : (1 <= destructions i tr)%nat -> destroyed i tr.
Proof.
  induction tr as [|e tr IH]; cbn; [lia|]. intros H. assert (T : (1 <= destructions i tr)%nat -> destroyed i (e :: tr)) by (intros X; apply destroyed_more; auto). destruct e; auto. destruct (Nat.eqb_spec i0 i) as [->|]; auto. exists t, p, d. cbn. auto.
Qed.
(* The function which destroys an item is called at most once, with what has been added *)
Theorem C94_once : forall selfs n l s t p i d post pre, all_along fair (start selfs n) l -> run (start selfs n) l = Ok s -> s_trace s = post ++ EDestroy t p i d :: pre ->
  (exists u, In (EAdd u p i d) pre) /\ (forall u r x, In (EAdd u r i x) (s_trace s) -> r = p /\ x = d) /\ ~ destroyed i pre /\ ~ destroyed i post.
Proof.
  intros selfs n l s t p i d post pre F R Tr. destruct (jk_of _ _ _ _ F R) as (_ & (_ & Kv) & _). pose proof (k_good _ _ _ _ Kv) as G. pose proof G as G'. rewrite Tr in G'. apply goodi_at in G'. destruct G' as ((u & U) & _). split; [eauto|]. split.
  - intros v r x H. assert (U' : In (EAdd u p i d) (s_trace s)) by (rewrite Tr; apply in_app_iff; cbn; auto). destruct (goodi_add _ G _ _ _ _ _ _ _ H U') as (_ & A & B). auto.
  - pose proof (k_count _ _ _ _ Kv i) as C. assert (destructions i (s_trace s) <= 1)%nat. { pose proof (sumz_nonneg (pw i) (items s) (pw_nonneg i)). pose proof (inframes_nonneg i (s_threads s)). destruct (Nat.ltb i (s_items s)); lia. }
    rewrite Tr in H. rewrite destructions_app in H. cbn in H. rewrite Nat.eqb_refl in H. split; intros D; apply destroyed_pos in D; lia.
Qed.
Print Assumptions C94_once.
(* An item is destroyed on the thread which has added it, unless that thread is exiting or has exited *)
Theorem C94_thread : forall selfs n l s t p i d post pre, all_along fair (start selfs n) l -> run (start selfs n) l = Ok s -> s_trace s = post ++ EDestroy t p i d :: pre ->
  exists u, In (EAdd u p i d) pre /\ (u = t \/ In (EExit u) pre).
Proof.
  intros selfs n l s t p i d post pre F R Tr. destruct (jk_of _ _ _ _ F R) as (_ & (Jv & Kv) & _). pose proof (k_good _ _ _ _ Kv) as Gi. pose proof (j_good _ _ _ Jv) as G. rewrite Tr in *. apply goodi_at in Gi. destruct Gi as ((u & U) & _). exists u. split; auto. apply good_at in G. destruct G as (O & G). apply O.
  apply in_split in U. destruct U as (a & b & ->). apply good_at in G. apply in_app_iff. right. right. apply G.
Qed.
Print Assumptions C94_thread.
(* When the thread has forgotten its pool, no main loop is going to call a source of it, and the client has no references: then the pool has been freed and
   everything which was added to it has been destroyed *)
Theorem C94_freed : forall selfs n l s t p, all_along fair (start selfs n) l -> run (start selfs n) l = Ok s -> In (EDefault t p) (s_trace s) -> calm s -> ~ kept s p -> scheduled p (s_trace s) = [] -> owned p (s_trace s) = 0 ->
  In (EGone p) (s_trace s) /\ forall u i d, In (EAdd u p i d) (s_trace s) -> destroyed i (s_trace s).
Proof.
  intros selfs n l s t p F R D C Nk Sd Ow. destruct (jk_of _ _ _ _ F R) as (I & (Jv & Kv) & Sc & G). unfold calm in C. rewrite Forall_forall in C. pose proof (new_of _ _ _ (j_good _ _ _ Jv) D) as Nw. destruct (j_new _ _ _ Jv _ _ Nw) as (L & _). unfold view in L. rewrite map_length in L.
  assert (Rz : forall c id, runs c id s = 0) by (intros c id; apply sumz_zero; intros th Hth; rewrite (C th Hth); auto).
  assert (Gn : nth_error (s_pools s) p = Some None).
  { destruct (nth_error (s_pools s) p) as [[q|]|] eqn:E; auto; [exfalso|apply nth_error_None in E; lia]. pose proof (i_refs _ _ I p) as Rf. rewrite E in Rf.
    assert (slots p s = 0). { apply sumz_zero. intros th Hth. destruct (t_slot th) as [r|] eqn:Sl; auto. cbn. destruct (Nat.eqb_spec r p) as [->|]; auto. destruct Nk. exists th. auto. }
    assert (nsrcs p s = 0). { apply sumz_zero. intros y Y. destruct (c_owner y) as [r|] eqn:Oy; auto. cbn. destruct (Nat.eqb_spec r p) as [->|]; auto. exfalso. destruct (c_stat y) eqn:Sy.
      - assert (Z : In (c_ctx y, c_id y) (scheduled p (s_trace s))) by (apply Sc; destruct y; cbn in *; subst; auto). rewrite Sd in Z. destruct Z.
      - destruct (i_busy _ _ I y Y) as (B & _); [congruence|]. rewrite Rz in B. discriminate.
      - destruct (i_busy _ _ I y Y) as (B & _); [congruence|]. rewrite Rz in B. discriminate. }
    assert (finals p s = 0) by (apply sumz_zero; intros th Hth; rewrite (C th Hth); auto). cbn [hold] in Rf. destruct Rf as (Ra & Rb). assert (Zr : p_refs q = 0) by lia. rewrite Zr in Rb. cbn in Rb. lia. }
  split; [apply G; auto|]. intros u i d A. apply pos_destroyed. pose proof (k_count _ _ _ _ Kv i) as Ct. pose proof (k_lt _ _ _ _ Kv _ _ _ _ A) as Lt. apply Nat.ltb_lt in Lt. rewrite Lt in Ct.
  assert (inframes i (s_threads s) = 0) by (apply sumz_zero; intros th Hth; rewrite (C th Hth); auto).
  assert (sumz (pw i) (items s) = 0).
  { destruct (Z.eq_dec (sumz (pw i) (items s)) 0) as [|Ne]; auto. exfalso. destruct (sumz_pos (pw i) (items s) (pw_nonneg i)) as (o & Ho & Po); [pose proof (sumz_nonneg (pw i) (items s) (pw_nonneg i)); lia|].
    apply In_nth_error in Ho. destruct Ho as (r & Ho). destruct o as [li|]; [|cbn in Po; lia]. cbn in Po. apply cnt_pos in Po. destruct Po as (x & Po). destruct (k_pool _ _ _ _ Kv r li i x Ho Po) as (v & V). destruct (goodi_add _ (k_good _ _ _ _ Kv) _ _ _ _ _ _ _ A V) as (_ & <- & _). unfold items in Ho. rewrite nth_error_map, Gn in Ho. discriminate. }
  lia.
Qed.
Print Assumptions C94_freed.

(* ---------------- the sources ---------------- *)
(* Each source is called on the thread of its pool: then it has destroyed everything that was waiting when it was called *)
Theorem C94_pass : forall selfs n l s t u c id p post mid pre, all_along fair (start selfs n) l -> all_along own (start selfs n) l -> run (start selfs n) l = Ok s ->
  s_trace s = post ++ EIdleEnd t c id p :: mid ++ EIdle u c id p :: pre -> (forall v, ~ In (EIdle v c id p) mid) -> forall i, In i (waiting p pre) -> destroyed i (mid ++ EIdle u c id p :: pre).
Proof.
  intros selfs n l s t u c id p post mid pre F Ow R Tr N i Hi. destruct (run_pf l _ s (start_inv selfs n) F Ow (start_jk _ _) (start_sc _ _) (start_ob _ _) (start_pf _ _) R) as (_ & G & _). rewrite Tr in G. apply goodp_at in G. destruct G as (G & _). eapply G; eauto.
Qed.
Print Assumptions C94_pass.
(* Besides, no drain removes a source of somebody else or one which does not exist: then items of a thread which is running wait only if there is a source *)
Theorem C94_scheduled_partial : forall selfs n l s t p, all_along fair (start selfs n) l -> all_along own (start selfs n) l -> run (start selfs n) l = Ok s -> (forall e, In e (s_trace s) -> ~ stranger e) ->
  In (EDefault t p) (s_trace s) -> ~ In (EExit t) (s_trace s) -> callable s t -> waiting p (s_trace s) <> [] -> scheduled p (s_trace s) <> [].
Proof.
  intros selfs n l s t p F Ow R Ns D N C Wt. destruct (jk_of _ _ _ _ F R) as (I & (Jv & Kv) & Sc & G). pose proof (run_o l _ s (start_inv selfs n) F Ow (start_jk _ _) (start_sc _ _) (start_o _ _) R Ns) as (_ & Wa).
  destruct (still _ _ _ Jv D N) as (th & E & _ & Sl). destruct (slot_live _ _ _ _ p I E Sl) as (q & Q & _). destruct (Wa p t th q E Sl Q) as (W1 & W2 & _). pose proof (k_wait _ _ _ _ Kv p) as Kw. rewrite (at_items _ _ _ Q) in Kw.
  destruct C as (th' & E' & C). rewrite E in E'. injection E' as <-. destruct W2 as [X|(w & k & X)]; [intros X; rewrite X in Kw; destruct (Wt Kw)| |rewrite X in C; destruct C]. destruct (W1 X) as (c & Y). apply Sc in Y. intros Z. rewrite Z in Y. destruct Y.
Qed.
Print Assumptions C94_scheduled_partial.
(* As long as no thread has a context of its own, a drain never removes a source of somebody else *)
Theorem C94_foreign_partial : forall selfs n l s t p id c o, all_along fair (start selfs n) l -> all_along plain (start selfs n) l -> run (start selfs n) l = Ok s -> In (EUnsource t p id c o) (s_trace s) -> o = Some p.
Proof.
  intros selfs n l s t p id c o F P R H. pose proof (run_pl l _ s (start_inv selfs n) F P (start_pl _ _) R) as A. pose proof (l_tr _ A _ H) as X. cbn in X. destruct o as [r|]; [destruct (Nat.eq_dec r p) as [->|Ne]; auto|]; destruct X; congruence.
Qed.
Print Assumptions C94_foreign_partial.

(* ---------------- runs ---------------- *)
Fixpoint steps (t n : nat) : list (nat * action) := match n with 0%nat => [] | S n => (t, AStep) :: steps t n end.
Definition after (selfs : list nat) (n : nat) (l : list (nat * action)) : state := match run (start selfs n) l with Ok s => s | Fail _ => start [] 0 end.

(* The thread adds two items, gets its pool and a reference, and the main loop calls the source *)
Definition simple : list (nat * action) :=
  [(0, AStart); (0, ACall (CAdd 5)); (0, ACall (CAdd 6)); (0, ACall CGet); (0, ACall CRef); (0, ADispatch 0 1)]%nat ++ steps 0 2 ++ [(0%nat, ACall (CAdd 7)); (0%nat, AReturn)] ++ steps 0 1 ++ [(0%nat, AReturn)].
Definition s_simple : state := Eval vm_compute in after [10%nat] 0 simple.
Definition simple_end : list (nat * action) := simple ++ steps 0 3 ++ [(0%nat, AReturn)] ++ steps 0 4.
Definition s_simple_end : state := Eval vm_compute in after [10%nat] 0 simple_end.
Lemma simple_run : run (start [10%nat] 0) simple = Ok s_simple /\ all_along fair (start [10%nat] 0) simple /\ all_along own (start [10%nat] 0) simple.
Proof. split; [vm_compute; reflexivity|]. split; [apply (along_ok _ fairb fair_ok)|apply (along_ok _ ownb own_ok)]; vm_compute; reflexivity. Qed.
Lemma simple_end_run : run (start [10%nat] 0) simple_end = Ok s_simple_end /\ all_along fair (start [10%nat] 0) simple_end /\ all_along own (start [10%nat] 0) simple_end.
Proof. split; [vm_compute; reflexivity|]. split; [apply (along_ok _ fairb fair_ok)|apply (along_ok _ ownb own_ok)]; vm_compute; reflexivity. Qed.
(* A thread without a context of its own adds an item and exits; the first thread gets the source of its pool *)
Definition leave : list (nat * action) :=
  [(0, AStart); (1, AStart); (1, ACall (CAdd 5)); (1, AExit false 4)]%nat ++ steps 1 2 ++ [(0%nat, ADispatch 0 1)] ++ steps 0 3 ++ [(0%nat, AReturn)] ++ steps 0 3.
Definition s_leave : state := Eval vm_compute in after [10%nat; 20%nat] 0 leave.
(* The second thread has a context of its own; both add items, and the second one drains its pool *)
Definition steal (first : list (nat * action)) : list (nat * action) :=
  [(0, AStart); (1, AStart); (1, APush 1)]%nat ++ first ++ [(1, ACall (CAdd 6)); (1, ACall CDrain)]%nat ++ steps 1 2 ++ [(1%nat, AReturn)] ++ steps 1 4.
Definition s_client : state := Eval vm_compute in after [10%nat; 20%nat] 1 (steal [(0%nat, ASource 0)]).
Definition s_stuck : state := Eval vm_compute in after [10%nat; 20%nat] 1 (steal [(0%nat, ACall (CAdd 5))]).
Definition s_bad : state := Eval vm_compute in after [10%nat; 20%nat] 1 (steal []).
(* The first thread runs the default context, where the source of the second one is *)
Definition wrong : list (nat * action) := [(0, AStart); (1, AStart); (1, ACall (CAdd 5)); (0, ADispatch 0 1); (0, AStep)]%nat.
Definition s_wrong : state := Eval vm_compute in after [10%nat; 20%nat] 0 wrong.
Lemma leave_run : run (start [10%nat; 20%nat] 0) leave = Ok s_leave /\ all_along fair (start [10%nat; 20%nat] 0) leave.
Proof. split; [vm_compute; reflexivity|]. apply (along_ok _ fairb fair_ok). vm_compute; reflexivity. Qed.

Example C94_example_safe : exists s, run (start [10%nat; 20%nat] 0) leave = Ok s.
Proof. apply C94_safe. apply leave_run. Qed.
Example C94_example_same : all_along fair (start [10%nat] 0) simple /\ run (start [10%nat] 0) simple = Ok s_simple /\ s_trace s_simple = firstn 10 (s_trace s_simple) ++ EDefault 0 0 :: skipn 11 (s_trace s_simple) /\
  In (EDefault 0 0) (skipn 11 (s_trace s_simple)) /\ ~ In (EExit 0) (skipn 11 (s_trace s_simple)).
Proof. destruct simple_run as (R & F & _). split; auto. split; auto. cbn. split; auto. split; [tauto|intuition discriminate]. Qed.
Example C94_example_own : run (start [10%nat; 20%nat] 1) (steal [(0%nat, ACall (CAdd 5))]) = Ok s_stuck /\ In (EDefault 0 0) (s_trace s_stuck) /\ In (EDefault 1 1) (s_trace s_stuck).
Proof. split; [vm_compute; reflexivity|]. cbn. tauto. Qed.
Example C94_example_alive : run (start [10%nat] 0) simple = Ok s_simple /\ In (EDefault 0 0) (s_trace s_simple) /\ ~ In (EExit 0) (s_trace s_simple) /\ 1 <= owned 0 (s_trace s_simple).
Proof. destruct simple_run as (R & _). split; auto. cbn. split; [tauto|]. split; [intuition discriminate|lia]. Qed.
Example C94_example_once : run (start [10%nat] 0) simple = Ok s_simple /\ s_trace s_simple = firstn 1 (s_trace s_simple) ++ EDestroy 0 0 1 6 :: skipn 2 (s_trace s_simple).
Proof. destruct simple_run as (R & _). split; auto. Qed.
(* The item is destroyed on the first thread; the second one has added it and has exited *)
Example C94_example_thread : run (start [10%nat; 20%nat] 0) leave = Ok s_leave /\ s_trace s_leave = firstn 3 (s_trace s_leave) ++ EDestroy 0 0 0 5 :: skipn 4 (s_trace s_leave) /\ In (EAdd 1 0 0 5) (skipn 4 (s_trace s_leave)).
Proof. destruct leave_run as (R & _). split; auto. cbn. split; auto. tauto. Qed.
Example C94_example_freed : In (EGone 0) (s_trace s_leave) /\ destroyed 0 (s_trace s_leave).
Proof.
  destruct leave_run as (R & F). destruct (C94_freed _ _ _ s_leave 1 0 F R) as (A & B); [cbn; tauto|repeat constructor|intros (th & [<-|[<-|[]]] & X); discriminate|reflexivity|reflexivity|]. split; auto. apply (B 1%nat 0%nat 5). cbn. tauto.
Qed.
(* Two items wait when the source is called, and another one is added while the first is being destroyed *)
Example C94_example_pass : run (start [10%nat] 0) simple_end = Ok s_simple_end /\ all_along own (start [10%nat] 0) simple_end /\
  s_trace s_simple_end = [] ++ EIdleEnd 0 0 1 0 :: firstn 13 (skipn 1 (s_trace s_simple_end)) ++ EIdle 0 0 1 0 :: skipn 15 (s_trace s_simple_end) /\ waiting 0 (skipn 15 (s_trace s_simple_end)) = [0; 1]%nat.
Proof. destruct simple_end_run as (R & _ & O). split; auto. Qed.
(* In the middle of the call an item has been added; it waits and has a source *)
Definition in_cb : list (nat * action) := [(0, AStart); (0, ACall (CAdd 5)); (0, ADispatch 0 1)]%nat ++ steps 0 2 ++ [(0%nat, ACall (CAdd 7))].
Definition s_in_cb : state := Eval vm_compute in after [10%nat] 0 in_cb.
Example C94_example_scheduled : scheduled 0 (s_trace s_in_cb) = [(0, 2)]%nat /\ scheduled 0 (s_trace s_in_cb) <> [].
Proof.
  split; [reflexivity|]. apply (C94_scheduled_partial [10%nat] 0 in_cb s_in_cb 0 0).
  - apply (along_ok _ fairb fair_ok). vm_compute; reflexivity.
  - apply (along_ok _ ownb own_ok). vm_compute; reflexivity.
  - vm_compute; reflexivity.
  - intros e H. cbn in H. repeat (destruct H as [<-|H]; [cbn; tauto|]). destruct H.
  - cbn. tauto.
  - cbn. intuition discriminate.
  - eexists. split; [reflexivity|exact Logic.I].
  - discriminate.
Qed.
Example C94_example_foreign : run (start [10%nat] 0) simple_end = Ok s_simple_end /\ all_along plain (start [10%nat] 0) simple_end /\ In (EUnsource 0 0 2 0 (Some 0%nat)) (s_trace s_simple_end).
Proof. destruct simple_end_run as (R & _ & _). split; auto. split; [apply (along_ok _ plainb plain_ok); vm_compute; reflexivity|cbn; tauto]. Qed.

(* Each main loop runs on its own thread. Line 180 looks for the source in the default context, although it is in the context of the thread: a drain removes a
   source of the client *)
Theorem C94_foreign_refuted : exists selfs n l s t p id, all_along fair (start selfs n) l /\ all_along home (start selfs n) l /\ run (start selfs n) l = Ok s /\ In (EUnsource t p id 0 None) (s_trace s) /\ In (ESource 0 id None) (s_trace s).
Proof.
  exists [10%nat; 20%nat], 1%nat, (steal [(0%nat, ASource 0)]), s_client, 1%nat, 0%nat, 1%nat. split; [apply (along_ok _ fairb fair_ok); vm_compute; reflexivity|]. split; [apply (along_ok _ homeb home_ok); vm_compute; reflexivity|]. split; [vm_compute; reflexivity|]. cbn. tauto.
Qed.
Print Assumptions C94_foreign_refuted.
(* ... or there is no such source, which is an error reported by GLib *)
Theorem C94_bad_refuted : exists selfs n l s t p id, all_along fair (start selfs n) l /\ all_along home (start selfs n) l /\ run (start selfs n) l = Ok s /\ In (EBad t p id) (s_trace s) /\ In (t_ctx (nth t (s_threads s) (Thread 0 Dead 0 None [])), id) (scheduled p (s_trace s)).
Proof.
  exists [10%nat; 20%nat], 1%nat, (steal []), s_bad, 1%nat, 0%nat, 1%nat. split; [apply (along_ok _ fairb fair_ok); vm_compute; reflexivity|]. split; [apply (along_ok _ homeb home_ok); vm_compute; reflexivity|]. split; [vm_compute; reflexivity|]. cbn. tauto.
Qed.
Print Assumptions C94_bad_refuted.
(* ... or it is the source of the pool of another thread. The items of that thread wait, nothing is in progress, and no main loop is going to destroy them *)
Theorem C94_stuck_refuted : exists selfs n l s t p, all_along fair (start selfs n) l /\ all_along home (start selfs n) l /\ run (start selfs n) l = Ok s /\ calm s /\ callable s t /\ In (EDefault t p) (s_trace s) /\ ~ In (EExit t) (s_trace s) /\
  waiting p (s_trace s) <> [] /\ scheduled p (s_trace s) = [].
Proof.
  exists [10%nat; 20%nat], 1%nat, (steal [(0%nat, ACall (CAdd 5))]), s_stuck, 0%nat, 0%nat. split; [apply (along_ok _ fairb fair_ok); vm_compute; reflexivity|]. split; [apply (along_ok _ homeb home_ok); vm_compute; reflexivity|]. split; [vm_compute; reflexivity|].
  split; [repeat constructor|]. split; [eexists; split; reflexivity|]. cbn. repeat split; try tauto; try discriminate. intuition discriminate.
Qed.
Print Assumptions C94_stuck_refuted.
(* Without contexts of threads: the first thread calls the source of the pool of another thread and nothing is destroyed. The item waits without a source
   (the comment in lines 196-199 says that the source is called again and again) *)
Theorem C94_wrong_thread_refuted : exists selfs n l s t p i, all_along fair (start selfs n) l /\ all_along home (start selfs n) l /\ all_along plain (start selfs n) l /\ run (start selfs n) l = Ok s /\ calm s /\ callable s t /\
  In (EAdd t p i 5) (s_trace s) /\ ~ In (EExit t) (s_trace s) /\ (exists u c id, In (EIdleEnd u c id p) (s_trace s)) /\ In i (waiting p (s_trace s)) /\ scheduled p (s_trace s) = [].
Proof.
  exists [10%nat; 20%nat], 0%nat, wrong, s_wrong, 1%nat, 0%nat, 0%nat. split; [apply (along_ok _ fairb fair_ok); vm_compute; reflexivity|]. split; [apply (along_ok _ homeb home_ok); vm_compute; reflexivity|]. split; [apply (along_ok _ plainb plain_ok); vm_compute; reflexivity|]. split; [vm_compute; reflexivity|].
  split; [repeat constructor|]. split; [eexists; split; reflexivity|]. cbn. split; [tauto|]. split; [intuition discriminate|]. split; [exists 0%nat, 0%nat, 1%nat; tauto|]. tauto.
Qed.
Print Assumptions C94_wrong_thread_refuted.
