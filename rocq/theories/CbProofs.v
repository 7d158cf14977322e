From Verif Require Import Base InotifyModel InotifySpec InotifyParse InotifyProofs InotifyProofs2 InotifyProofs3 CbModel CbSpec.

(* ---------------- what a step adds to the trace ---------------- *)
Definition dull (e : event) : bool := match e with ENew _ _ _ _ | ERef _ | EUnref _ | EDestroy _ | EConnect _ _ | EDisconnect _ _ => false | _ => true end.
Definition calmly (s s' : state) : Prop := s_nid s' = s_nid s /\ exists evs, s_trace s' = evs ++ s_trace s /\ forallb dull evs = true.
Lemma calmly_by evs s s' : s_nid s' = s_nid s -> s_trace s' = evs ++ s_trace s -> forallb dull evs = true -> calmly s s'.
Proof. unfold calmly. eauto. Qed.
Ltac ca evs := apply (calmly_by evs); reflexivity.
Lemma calmly_refl s : calmly s s. Proof. ca (@nil event). Qed.
Lemma calmly_trans a b c : calmly a b -> calmly b c -> calmly a c.
Proof. intros (N1 & e1 & E1 & D1) (N2 & e2 & E2 & D2). apply (calmly_by (e2 ++ e1)); [congruence|rewrite E2, E1, app_assoc; auto|rewrite forallb_app, D1, D2; auto]. Qed.
Lemma remove_calm s sid : calmly s (remove_source s sid).
Proof. unfold remove_source. destruct (source s sid); [ca [EUnsource sid]|ca [EBadRemove sid]]. Qed.
Lemma close_calm s fd : calmly s (close s fd).
Proof. unfold close. destruct (nth_error (s_fds s) fd) as [[f|]|]; [ca [EClose fd f]|ca [EBadClose fd]|ca [EBadClose fd]]. Qed.
Lemma put_inst_calm s i q s' : put_inst s i q = Ok s' -> calmly s s'.
Proof. unfold put_inst. destruct (put _ i q); cbn [bind]; [|discriminate]. intros E. injection E as <-. ca (@nil event). Qed.
Lemma put_watch_calm s i q s' : put_watch s i q = Ok s' -> calmly s s'.
Proof. unfold put_watch. destruct (put _ i q); cbn [bind]; [|discriminate]. intros E. injection E as <-. ca (@nil event). Qed.
Lemma unref_calm s i s' : unref_inst s i = Ok s' -> calmly s s'.
Proof.
  unfold unref_inst. destruct (get (s_insts s) i) as [q|]; cbn [bind]; [|discriminate]. destruct (put_inst s i _) as [s1|] eqn:E1; cbn [bind]; [|discriminate]. apply put_inst_calm in E1.
  destruct (i_refs q - 1 =? 0); [|intros X; injection X as <-; auto]. intros X. injection X as <-. refine (calmly_trans _ _ _ E1 _).
  match goal with |- calmly _ (set_stack (close ?z ?f) _) => assert (A : calmly s1 z) by (destruct (Nat.eqb (i_src q) 0); [apply calmly_refl|apply remove_calm]); pose proof (close_calm z f) as B end.
  refine (calmly_trans _ _ _ A _). refine (calmly_trans _ _ _ B _). ca (@nil event).
Qed.
Lemma close_end_calm s i s' : close_end s i = Ok s' -> calmly s s'.
Proof.
  unfold close_end. destruct (get (s_insts s) i) as [q|]; cbn [bind]; [|discriminate]. destruct (release _ i) as [l|]; cbn [bind]; [|discriminate]. intros X. injection X as <-.
  refine (calmly_trans _ _ _ (close_calm s (i_fd q)) _). destruct (s_var (close s (i_fd q))) as [j|]; [destruct (Nat.eqb i j)|]; ca [EGoneInst i].
Qed.
Lemma stop_calm s w s' : watch_stop s w = Ok s' -> calmly s s'.
Proof.
  unfold watch_stop. destruct (get (s_watches s) w) as [x|]; cbn [bind]; [|discriminate]. destruct (w_wd x >=? 0); [|intros X; injection X as <-; apply calmly_refl].
  destruct (get (s_insts s) (w_inst x)) as [q|]; cbn [bind]; [|discriminate]. destruct (put_inst s _ _) as [s1|] eqn:E1; cbn [bind]; [|discriminate]. apply put_inst_calm in E1.
  destruct (put_watch _ w _) as [s2|] eqn:E2; cbn [bind]; [|discriminate]. apply put_watch_calm in E2. intros X. injection X as <-. refine (calmly_trans _ _ _ E1 _).
  refine (calmly_trans _ (set_fds s1 (krm (s_fds s1) (i_fd q) (w_wd x))) _ _ _); [ca (@nil event)|]. refine (calmly_trans _ _ _ E2 _). ca [EStop w (w_inst x) (w_wd x)].
Qed.
Lemma wunref_calm s w s' : watch_unref s w = Ok s' -> calmly s s'.
Proof.
  unfold watch_unref. destruct (get (s_watches s) w) as [x|]; cbn [bind]; [|discriminate]. destruct (put_watch s w _) as [s1|] eqn:E1; cbn [bind]; [|discriminate]. apply put_watch_calm in E1.
  destruct (w_refs x - 1 =? 0); [|intros X; injection X as <-; auto]. destruct (watch_stop s1 w) as [s2|] eqn:E2; cbn [bind]; [|discriminate]. apply stop_calm in E2.
  destruct (release (s_watches s2) w) as [l|]; cbn [bind]; [|discriminate]. intros X. apply unref_calm in X. refine (calmly_trans _ _ _ E1 _). refine (calmly_trans _ _ _ E2 _). refine (calmly_trans _ _ _ _ X). ca [EGone w].
Qed.
Lemma new_inst_calm s s' i : new_inst s = Ok (s', i) -> calmly s s' /\ s_watches s' = s_watches s /\ s_stack s' = s_stack s.
Proof.
  unfold new_inst. destruct (s_var s) as [j|].
  - unfold ref_inst. destruct (get (s_insts s) j) as [q|]; cbn [bind]; [|discriminate]. destruct (put_inst s j _) as [s1|] eqn:E1; cbn [bind]; [|discriminate]. intros X. injection X as <- <-.
    split; [eapply put_inst_calm; eauto|]. unfold put_inst in E1. destruct (put _ j _); cbn [bind] in E1; [|discriminate]. injection E1 as <-. auto.
  - intros X. injection X as <- <-. split; [|auto]. ca [ESource (s_nsrc s) (length (s_insts s)); EInit (length (s_insts s)) (lowest (s_fds s))].
Qed.
Lemma unref_watches s i s' : unref_inst s i = Ok s' -> s_watches s' = s_watches s.
Proof.
  unfold unref_inst. destruct (get (s_insts s) i) as [q|]; cbn [bind]; [|discriminate]. unfold put_inst. destruct (put (s_insts s) i _) as [l|]; cbn [bind]; [|discriminate].
  assert (A : forall s fd, s_watches (close s fd) = s_watches s) by (intros s0 fd; unfold close; destruct (nth_error (s_fds s0) fd) as [[f|]|]; reflexivity).
  assert (B : forall s sid, s_watches (remove_source s sid) = s_watches s) by (intros s0 sid; unfold remove_source; destruct (source s0 sid); reflexivity).
  destruct (i_refs q - 1 =? 0); intros X; injection X as <-; [|auto]. cbn [s_watches set_stack]. rewrite A. destruct (Nat.eqb (i_src q) 0); [auto|rewrite B; auto].
Qed.
(* gutil_inotify_watch_new *)
Lemma new_calm s n s' : watch_new s n = Ok s' ->
  (calmly s s' /\ s_watches s' = s_watches s) \/
  exists s1 i m wd x, calmly s s1 /\ s_trace s' = ENew (length (s_watches s)) i m wd :: s_trace s1 /\ s_nid s' = s_nid s1 /\ s_stack s' = s_stack s /\ s_watches s' = s_watches s ++ [Some x].
Proof.
  unfold watch_new. destruct (new_inst s) as [(s1 & i)|] eqn:E1; cbn [bind]; [|discriminate]. apply new_inst_calm in E1. destruct E1 as (C1 & W1 & K1).
  destruct (get (s_insts s1) i) as [q|]; cbn [bind]; [|discriminate].
  match goal with |- match ?z with _ => _ end = _ -> _ => destruct z as [((l & wd) & m)|] end.
  - unfold put_inst. match goal with |- (do s <- do l <- ?z; _; _) = _ -> _ => destruct z as [l'|] end; cbn [bind]; [|discriminate]. intros X. injection X as <-. right.
    exists s1, i, m, wd, (Watch 1 i wd []). split; auto. cbn. rewrite W1. auto.
  - destruct (unref_inst s1 i) as [s2|] eqn:E2; cbn [bind]; [|discriminate]. intros X. injection X as <-. left. pose proof (unref_calm _ _ _ E2) as C2. pose proof (unref_watches _ _ _ E2) as W2.
    split; [|cbn; congruence]. refine (calmly_trans _ _ _ C1 _). refine (calmly_trans _ _ _ C2 _). ca [ENone].
Qed.
Lemma step_calm s a s' : step s a = Ok s' -> (forall c, a <> ACall c) -> calmly s s'.
Proof.
  destruct a as [c| | |sid r|fd n| |fd]; cbn [step]; intros E N.
  - destruct (N c). auto.
  - destruct (s_stack s) as [|[i|i nx nb|i w wd m c p la ma|w id|sid ok] k]; injection E as <-; try (apply calmly_refl). ca [EReturn].
  - destruct (s_stack s) as [|[i|i nx nb|i w wd m c p la ma|w id|sid ok] k]; try (injection E as <-; apply calmly_refl).
    + apply close_end_calm in E. refine (calmly_trans _ _ _ _ E). ca (@nil event).
    + unfold loop in E. destruct (get (s_insts s) i) as [q|]; cbn [bind] in E; [|discriminate].
      assert (L : loop_end (set_stack s k) i = Ok s' -> calmly s s'). { unfold loop_end. intros X. apply unref_calm in X. refine (calmly_trans _ _ _ _ X). ca [EReadEnd i]. }
      destruct (nb >? 0); [|auto]. destruct (rd_u32 _ (nx + 12)) as [l|]; cbn [bind] in E; [|discriminate]. destruct (16 + l >? nb); [auto|]. destruct (rd_u32 _ nx) as [wd|]; cbn [bind] in E; [|discriminate].
      destruct (t_lookup (i_watches q) (s32 wd)) as [w|]; [|injection E as <-; ca [ELook i (s32 wd) None]]. destruct (get (s_watches s) w) as [x|]; cbn [bind] in E; [|discriminate].
      destruct (put_watch s w _) as [s1|] eqn:E1; cbn [bind] in E; [|discriminate]. apply put_watch_calm in E1. destruct (rd_u32 _ (nx + 4)) as [m|]; cbn [bind] in E; [|discriminate]. destruct (rd_u32 _ (nx + 8)) as [c|]; cbn [bind] in E; [|discriminate].
      injection E as <-. refine (calmly_trans _ _ _ E1 _). ca [ELook i (s32 wd) (Some w)].
    + unfold emission in E. destruct (get (s_watches s) w) as [x|]; cbn [bind] in E; [|discriminate]. destruct (find _ (w_handlers x)) as [id|].
      * match type of E with (do name <- ?z; _) = _ => destruct z as [name|] end; cbn [bind] in E; [|discriminate]. injection E as <-. ca [ECall w id (IEv wd m c name)].
      * apply wunref_calm in E. refine (calmly_trans _ _ _ _ E). ca (@nil event).
    + injection E as <-. unfold dispatch_end. destruct (source (set_stack s k) sid) as [((? & i) & ?)|]; [|ca (@nil event)]. destruct ok; [ca (@nil event)|]. refine (calmly_trans _ _ _ _ (remove_calm _ _)). ca (@nil event).
  - destruct (callable (s_stack s)); [|injection E as <-; apply calmly_refl]. unfold dispatch in E. destruct (source s sid) as [((? & i) & [|])|]; try (injection E as <-; apply calmly_refl).
    destruct (get (s_insts s) i) as [q|]; cbn [bind] in E; [|discriminate]. destruct r as [| |data].
    + destruct (put_inst s i _) as [s1|] eqn:E1; cbn [bind] in E; [|discriminate]. apply put_inst_calm in E1. injection E as <-. refine (calmly_trans _ _ _ E1 _). apply remove_calm.
    + destruct (put_inst _ i _) as [s1|] eqn:E1; cbn [bind] in E; [|discriminate]. apply put_inst_calm in E1. apply unref_calm in E. refine (calmly_trans _ _ _ _ E). refine (calmly_trans _ s1 _ _ _); [|ca (@nil event)]. refine (calmly_trans _ _ _ _ E1). ca (@nil event).
    + destruct (len data <=? 272); [|injection E as <-; apply calmly_refl]. destruct (put_inst _ i _) as [s1|] eqn:E1; cbn [bind] in E; [|discriminate]. apply put_inst_calm in E1. injection E as <-.
      refine (calmly_trans _ s1 _ _ _); [|ca [ERead i data]]. refine (calmly_trans _ _ _ _ E1). ca (@nil event).
  - injection E as <-. ca (@nil event).
  - injection E as <-. ca (@nil event).
  - destruct (nth_error (s_fds s) fd) as [[[k|]|]|]; injection E as <-; try (apply calmly_refl). ca (@nil event).
Qed.
Lemma dull_same evs tr w : forallb dull evs = true -> owned (evs ++ tr) w = owned tr w /\ connected (evs ++ tr) w = connected tr w.
Proof. induction evs as [|e evs IH]; cbn [forallb app]; [auto|]. intros H. apply andb_prop in H. destruct H as (H1 & H2). destruct (IH H2) as (A & B). destruct e; try discriminate; cbn; auto. Qed.
Lemma calmly_same s s' w : calmly s s' -> owned (s_trace s') w = owned (s_trace s) w /\ connected (s_trace s') w = connected (s_trace s) w /\ s_nid s' = s_nid s.
Proof. intros (N & evs & E & D). rewrite E. destruct (dull_same evs (s_trace s) w D) as (A & B). auto. Qed.

(* ---------------- the invariant ---------------- *)
Record BI (b : bstate) : Prop := {
  bi_inv : inv (b_base b);
  bi_conn : forall c x, there b c x -> In (c_id x) (connected (s_trace (b_base b)) (c_watch x));
  bi_users : forall w, users (b_cbs b) w <= owned (s_trace (b_base b)) w;
  bi_one : forall c d x y, there b c x -> there b d y -> c_id x = c_id y -> c = d }.
Lemma users_pos l w : 0 <= users l w.
Proof. induction l as [|[x|] l IH]; cbn; [lia|destruct (Nat.eqb _ _); lia|auto]. Qed.
Lemma users_app l x w : users (l ++ [Some x]) w = users l w + if Nat.eqb (c_watch x) w then 1 else 0.
Proof. induction l as [|[y|] l IH]; cbn; lia. Qed.
Lemma users_free l c x : nth_error l c = Some (Some x) -> forall w, users (upd l c None) w = users l w - if Nat.eqb (c_watch x) w then 1 else 0.
Proof.
  revert c. induction l as [|o l IH]; intros [|c] E w; cbn in E; try discriminate.
  - injection E as ->. cbn. lia.
  - cbn. rewrite (IH c E). destruct o; lia.
Qed.
Lemma users_in l c x : nth_error l c = Some (Some x) -> 1 <= users l (c_watch x).
Proof. intros E. pose proof (users_free _ _ _ E (c_watch x)) as U. rewrite Nat.eqb_refl in U. pose proof (users_pos (upd l c None) (c_watch x)). lia. Qed.
Lemma inv_common s : inv s -> common s zero. Proof. intros [C _]. exact C. Qed.
Lemma calls s c s' : do_call s c = Ok s' ->
  match c with
  | CNew n => watch_new s n = Ok s'
  | CNewFail => calmly s s'
  | CRef w => calmly (emit s (ERef w)) s'
  | CUnref w => calmly (emit s (EUnref w)) s'
  | CDestroy w => calmly (emit s (EDestroy w)) s'
  | CConnect w => s_trace s' = EConnect w (s_nid s) :: s_trace s /\ s_nid s' = S (s_nid s) /\ s_stack s' = s_stack s
  | CDisconnect w id => s_trace s' = EDisconnect w id :: s_trace s /\ s_nid s' = s_nid s /\ s_stack s' = s_stack s
  end.
Proof.
  destruct c as [n| |w|w|w|w|w id]; cbn [do_call]; intros E.
  - exact E.
  - destruct (s_var s); injection E as <-; [apply calmly_refl|ca [ENone]].
  - destruct (get (s_watches s) w) as [x|]; cbn [bind] in E; [|discriminate]. unfold put_watch in E. destruct (put _ w _); cbn [bind] in E; [|discriminate]. injection E as <-. ca (@nil event).
  - apply wunref_calm in E. exact E.
  - destruct (watch_stop _ w) as [s1|] eqn:E1; cbn [bind] in E; [|discriminate]. apply stop_calm in E1. apply wunref_calm in E. eapply calmly_trans; eauto.
  - destruct (get (s_watches s) w) as [x|]; cbn [bind] in E; [|discriminate]. unfold put_watch in E. destruct (put _ w _); cbn [bind] in E; [|discriminate]. injection E as <-. auto.
  - destruct (get (s_watches s) w) as [x|]; cbn [bind] in E; [|discriminate]. unfold put_watch in E. destruct (put _ w _); cbn [bind] in E; [|discriminate]. injection E as <-. auto.
Qed.

Lemma start_BI : BI bstart.
Proof. split; cbn; try (intros; lia); [apply inv_start| |]; unfold there; cbn; intros [|c]; discriminate || intros [|d]; discriminate. Qed.
(* the same callbacks *)
Lemma BI_keep b s : BI b -> inv s ->
  (forall c x, there b c x -> In (c_id x) (connected (s_trace (b_base b)) (c_watch x)) -> In (c_id x) (connected (s_trace s) (c_watch x))) ->
  (forall w, users (b_cbs b) w <= owned (s_trace (b_base b)) w -> users (b_cbs b) w <= owned (s_trace s) w) -> BI (BState s (b_cbs b)).
Proof. intros B I H K. split; cbn [b_base b_cbs]; auto; [|intros w; apply K, B|apply B]. intros c x T. apply H with c; auto. apply (bi_conn _ B c x T). Qed.
Lemma do_BI b a s : BI b -> careful b (BDo a) -> step (b_base b) a = Ok s -> inv s -> BI (BState s (b_cbs b)).
Proof.
  intros B (F & C) E I. apply BI_keep; auto.
  - intros c x T H. destruct a as [cl| | |sid r|fd n| |fd];
      try (destruct (calmly_same _ _ (c_watch x) (step_calm _ _ _ E ltac:(discriminate))) as (_ & A & _); rewrite A; exact H).
    cbn [step] in E. destruct (callable (s_stack (b_base b))); [|injection E as <-; exact H]. apply calls in E. destruct cl as [n| |w|w|w|w|w id].
    + apply new_calm in E. destruct E as [(E & _)|(s1 & i & m & wd & y & E & ET & _)]; [destruct (calmly_same _ _ (c_watch x) E) as (_ & A & _); rewrite A; exact H|].
      rewrite ET. cbn [connected]. destruct (calmly_same _ _ (c_watch x) E) as (_ & A & _). rewrite A. exact H.
    + destruct (calmly_same _ _ (c_watch x) E) as (_ & A & _). rewrite A. exact H.
    + destruct (calmly_same _ _ (c_watch x) E) as (_ & A & _). rewrite A. exact H.
    + destruct (calmly_same _ _ (c_watch x) E) as (_ & A & _). rewrite A. exact H.
    + destruct (calmly_same _ _ (c_watch x) E) as (_ & A & _). rewrite A. exact H.
    + destruct E as (E & _). rewrite E. cbn [connected]. destruct (Nat.eqb _ _); [apply in_or_app; auto|exact H].
    + destruct E as (E & _). rewrite E. cbn [connected]. destruct (Nat.eqb _ _); [|exact H]. apply filter_In. split; auto. specialize (C c x T). apply negb_true_iff, Nat.eqb_neq. auto.
  - intros w H. destruct a as [cl| | |sid r|fd n| |fd];
      try (destruct (calmly_same _ _ w (step_calm _ _ _ E ltac:(discriminate))) as (A & _); rewrite A; exact H).
    cbn [step] in E. destruct (callable (s_stack (b_base b))); [|injection E as <-; exact H]. apply calls in E. destruct cl as [n| |v|v|v|v|v id].
    + apply new_calm in E. destruct E as [(E & _)|(s1 & i & m & wd & y & E & ET & _)]; [destruct (calmly_same _ _ w E) as (A & _); rewrite A; exact H|].
      rewrite ET. cbn [owned]. destruct (calmly_same _ _ w E) as (A & _). rewrite A. destruct (Nat.eqb _ _); lia.
    + destruct (calmly_same _ _ w E) as (A & _). rewrite A. exact H.
    + destruct (calmly_same _ _ w E) as (A & _). rewrite A. cbn [emit s_trace owned]. destruct (Nat.eqb _ _); lia.
    + destruct (calmly_same _ _ w E) as (A & _). rewrite A. cbn [emit s_trace owned]. destruct (Nat.eqb w v) eqn:Q; [apply Nat.eqb_eq in Q; subst v|]; lia.
    + destruct (calmly_same _ _ w E) as (A & _). rewrite A. cbn [emit s_trace owned]. destruct (Nat.eqb w v) eqn:Q; [apply Nat.eqb_eq in Q; subst v|]; lia.
    + destruct E as (E & _). rewrite E. exact H.
    + destruct E as (E & _). rewrite E. exact H.
Qed.
Lemma id_old b c x : BI b -> there b c x -> (1 <= c_id x < s_nid (b_base b))%nat.
Proof. intros B T. pose proof (bi_conn _ B c x T) as H. destruct (co_incr _ _ (proj1 (bi_inv _ B)) (c_watch x)) as (_ & F). rewrite Forall_forall in F. auto. Qed.

(* One step is one or two steps of the base *)
Definition acts (b : bstate) (x : baction) (b' : bstate) (l : list action) : Prop :=
  run (b_base b) l = Ok (b_base b') /\ all_along fair (b_base b) l /\ (bdistinct b x -> all_along distinct (b_base b) l).
Lemma acts_one b x s l a : step (b_base b) a = Ok s -> fair (b_base b) a -> (bdistinct b x -> distinct (b_base b) a) -> acts b x (BState s l) [a].
Proof. intros E F D. unfold acts. cbn [run all_along b_base]. rewrite E. cbn [bind]. split; auto. Qed.
Lemma acts_two b x s t l a c : step (b_base b) a = Ok s -> fair (b_base b) a -> (bdistinct b x -> distinct (b_base b) a) -> step s c = Ok t -> fair s c -> distinct s c -> acts b x (BState t l) [a; c].
Proof. intros E F D G H K. unfold acts. cbn [run all_along b_base]. rewrite E. cbn [bind]. rewrite G. cbn [bind]. split; auto. Qed.

Lemma owned_live s w : inv s -> 1 <= owned (s_trace s) w -> exists x, live (s_watches s) w x.
Proof.
  intros (C & _) O. pose proof (co_refs _ _ C w) as R. pose proof (emits_nonneg w (s_stack s)). unfold zero, wrefs in R. unfold live.
  destruct (nth_error (s_watches s) w) as [[x|]|]; [eauto|lia|lia].
Qed.
Lemma fresh s w : inv s -> (length (s_watches s) <= w)%nat -> owned (s_trace s) w = 0 /\ connected (s_trace s) w = [].
Proof.
  intros (C & _) L. split; [|apply (co_new _ _ C w L)]. pose proof (co_refs _ _ C w) as R. pose proof (emits_nonneg w (s_stack s)). pose proof (co_owned _ _ C w). unfold zero, wrefs in R.
  apply nth_error_None in L. rewrite L in R. lia.
Qed.

Lemma new_shape s n s' : inv s -> callable (s_stack s) = true -> watch_new s n = Ok s' ->
  match n with
  | None => calmly s s' /\ s_watches s' = s_watches s
  | Some n => exists s1 i wd x, calmly s s1 /\ s_trace s' = ENew (length (s_watches s)) i n wd :: s_trace s1 /\ s_nid s' = s_nid s1 /\ s_stack s' = s_stack s /\ s_watches s' = s_watches s ++ [Some x]
  end.
Proof.
  intros I K E. destruct (new_inst_ok _ I K) as (s1 & i & q & E1 & C & A & K1). pose proof (new_inst_calm _ _ _ E1) as (C1 & W1 & _). unfold watch_new in E. rewrite E1 in E. cbn [bind] in E.
  rewrite (get_live _ _ _ (al_live _ _ _ _ A)) in E. cbn [bind] in E. destruct n as [n|].
  - destruct (kadd_ok _ _ n (al_fd _ _ _ _ A)) as (l & wd & Q & _). rewrite Q in E. erewrite put_inst_live in E by apply (al_live _ _ _ _ A). cbn [bind] in E. injection E as <-.
    exists s1, i, wd, (Watch 1 i wd []). split; auto. cbn. rewrite W1. auto.
  - destruct (unref_inst s1 i) as [s2|] eqn:E2; cbn [bind] in E; [|discriminate]. injection E as <-. pose proof (unref_calm _ _ _ E2) as C2. pose proof (unref_watches _ _ _ E2) as W2.
    split; [|cbn; congruence]. refine (calmly_trans _ _ _ C1 _). refine (calmly_trans _ _ _ C2 _). ca [ENone].
Qed.
Definition created (b b' : bstate) (m : nat) : Prop :=
  exists w id i wd, b_cbs b' = b_cbs b ++ [Some (Cb w id)] /\ w = length (s_watches (b_base b)) /\ id = s_nid (b_base b) /\ In (ENew w i m wd) (s_trace (b_base b')) /\
    (forall v, owned (s_trace (b_base b')) v = (if Nat.eqb v w then 1 else 0) + owned (s_trace (b_base b)) v) /\
    (forall v, connected (s_trace (b_base b')) v = connected (s_trace (b_base b)) v ++ if Nat.eqb v w then [id] else []) /\ s_nid (b_base b') = S id /\ s_stack (b_base b') = s_stack (b_base b).
Lemma new_ok b n : BI b -> callable (s_stack (b_base b)) = true ->
  exists b' l, callback_new b n = Ok b' /\ acts b (BNew n) b' l /\ inv (b_base b') /\ match n with None => b_cbs b' = b_cbs b /\ calmly (b_base b) (b_base b') | Some n => created b b' n end.
Proof.
  intros B K. pose proof (bi_inv _ B) as I. destruct (step_ok (b_base b) (ACall (CNew n)) I Logic.I) as (s1 & E1 & I1). pose proof E1 as D1. cbn [step] in D1. rewrite K in D1.
  unfold callback_new. rewrite D1. cbn [bind]. unfold new_watch. pose proof (calls _ _ _ D1) as NW. cbn in NW. apply (new_shape _ _ _ I K) in NW. destruct n as [m|].
  2: { destruct NW as (CA & W). rewrite W, Nat.ltb_irrefl. eexists _, [ACall (CNew None)]. split; [reflexivity|]. split; [apply acts_one; cbn; auto|]. cbn [b_base b_cbs]. auto. }
  destruct NW as (s0 & i & wd & x & CA & ET & EN & EK & EW).
  - rewrite EW, app_length. replace (Nat.ltb _ _) with true by (symmetry; apply Nat.ltb_lt; cbn; lia). set (w := length (s_watches (b_base b))) in *.
    destruct (fresh _ w I ltac:(unfold w; lia)) as (O & CO).
    assert (F2 : fair s1 (ACall (CConnect w))).
    { cbn. left. rewrite ET. cbn [owned]. rewrite Nat.eqb_refl. destruct (calmly_same _ _ w CA) as (A & _). rewrite A. lia. }
    destruct (step_ok s1 _ I1 F2) as (s2 & E2 & I2). pose proof E2 as D2. cbn [step] in D2. rewrite EK, K in D2. rewrite D2. cbn [bind]. pose proof (calls _ _ _ D2) as (T2 & N2 & K2).
    eexists _, [ACall (CNew (Some m)); ACall (CConnect w)]. split; [reflexivity|]. split; [apply acts_two with s1; cbn; auto|]. cbn [b_base b_cbs]. split; auto.
    assert (NID : s_nid s1 = s_nid (b_base b)) by (rewrite EN; apply CA).
    exists w, (s_nid (b_base b)), i, wd. cbn [b_base b_cbs]. split; [rewrite <- NID; auto|]. split; auto. split; auto. split; [rewrite T2, ET; cbn; auto|].
    split; [|split; [|split; [congruence|congruence]]]; intros v; destruct (calmly_same _ _ v CA) as (A1 & A2 & _); rewrite T2, ET; cbn [owned connected]; [rewrite A1; auto|].
    rewrite A2, NID. destruct (Nat.eqb v w); [auto|rewrite app_nil_r; auto].
Qed.
Definition freed (b b' : bstate) (c : nat) : Prop :=
  exists w id, there b c (Cb w id) /\ b_cbs b' = upd (b_cbs b) c None /\
    (forall v, owned (s_trace (b_base b')) v = owned (s_trace (b_base b)) v - if Nat.eqb v w then 1 else 0) /\
    (forall v, connected (s_trace (b_base b')) v = if Nat.eqb v w then filter (fun j => negb (Nat.eqb j id)) (connected (s_trace (b_base b)) v) else connected (s_trace (b_base b)) v) /\
    s_nid (b_base b') = s_nid (b_base b).
Lemma free_ok b c x : BI b -> callable (s_stack (b_base b)) = true -> there b c x ->
  exists b' l, callback_free b (Some c) = Ok b' /\ acts b (BFree (Some c)) b' l /\ inv (b_base b') /\ freed b b' c.
Proof.
  intros B K T. pose proof (bi_inv _ B) as I. destruct x as [w id]. unfold callback_free. rewrite (get_live _ _ _ T). cbn [bind c_watch c_id].
  assert (O : 1 <= owned (s_trace (b_base b)) w) by (pose proof (users_in _ _ _ T) as U; pose proof (bi_users _ B w); cbn in U; lia).
  assert (F1 : fair (b_base b) (ACall (CDisconnect w id))) by (cbn; left; auto).
  destruct (step_ok _ _ I F1) as (s1 & E1 & I1). pose proof E1 as D1. cbn [step] in D1. rewrite K in D1. rewrite D1. cbn [bind]. pose proof (calls _ _ _ D1) as (T1 & N1 & K1).
  assert (F2 : fair s1 (ACall (CUnref w))) by (cbn; rewrite T1; exact O).
  destruct (step_ok _ _ I1 F2) as (s2 & E2 & I2). pose proof E2 as D2. cbn [step] in D2. rewrite K1, K in D2. rewrite D2. cbn [bind]. pose proof (calls _ _ _ D2) as CA. cbn in CA.
  rewrite (release_live _ _ _ T). cbn [bind]. eexists _, [ACall (CDisconnect w id); ACall (CUnref w)]. split; [reflexivity|]. split; [apply acts_two with s1; cbn; auto|]. split; [exact I2|].
  exists w, id. split; auto. cbn [b_base b_cbs]. split; auto. split; [|split; [|destruct CA as (N & _); rewrite N; exact N1]]; intros v; destruct (calmly_same _ _ v CA) as (A1 & A2 & _).
  - rewrite A1. cbn [emit s_trace owned]. rewrite T1. reflexivity.
  - rewrite A2. cbn [emit s_trace connected]. rewrite T1. reflexivity.
Qed.
Lemma created_BI b b' n : BI b -> inv (b_base b') -> created b b' n -> BI b'.
Proof.
  intros B I (w & id & i & wd & C & EW & EI & _ & O & CN & N & _). split; auto.
  - intros c x T. unfold there in T. rewrite C in T. apply live_app in T. rewrite CN. apply in_or_app. destruct T as [(_ & ->)|T]; [right; cbn; rewrite Nat.eqb_refl; cbn; auto|left; apply (bi_conn _ B c x T)].
  - intros v. rewrite C, users_app, O. cbn [c_watch]. rewrite (Nat.eqb_sym w v). pose proof (bi_users _ B v). lia.
  - intros c d x y T U Q. unfold there in T, U. rewrite C in T, U. apply live_app in T, U. destruct T as [(-> & ->)|T]; destruct U as [(-> & ->)|U]; auto.
    + pose proof (id_old _ _ _ B U). cbn in Q. lia.
    + pose proof (id_old _ _ _ B T). cbn in Q. lia.
    + apply (bi_one _ B _ _ _ _ T U Q).
Qed.
Lemma freed_BI b b' c : BI b -> inv (b_base b') -> freed b b' c -> BI b'.
Proof.
  intros B I (w & id & T & C & O & CN & N). split; auto.
  - intros d x U. unfold there in U. rewrite C in U. apply live_upd in U. destruct U as [(_ & U)|(NE & U)]; [discriminate|]. rewrite CN. pose proof (bi_conn _ B d x U) as H. destruct (Nat.eqb (c_watch x) w); auto.
    apply filter_In. split; auto. apply negb_true_iff, Nat.eqb_neq. intros Q. apply NE. apply (bi_one _ B c d (Cb w id) x T U). auto.
  - intros v. rewrite C, (users_free _ _ _ T v), O. cbn [c_watch]. rewrite (Nat.eqb_sym w v). pose proof (bi_users _ B v). lia.
  - intros d e x y U V. unfold there in U, V. rewrite C in U, V. apply live_upd in U, V. destruct U as [(_ & U)|(_ & U)]; [discriminate|]. destruct V as [(_ & V)|(_ & V)]; [discriminate|]. apply (bi_one _ B _ _ _ _ U V).
Qed.
Definition did (b : bstate) (x : baction) (b' : bstate) : Prop :=
  match x with
  | BDo a => step (b_base b) a = Ok (b_base b') /\ b_cbs b' = b_cbs b
  | BNewFail => calmly (b_base b) (b_base b') /\ b_cbs b' = b_cbs b
  | BNew n => (b_cbs b' = b_cbs b /\ calmly (b_base b) (b_base b')) \/ exists m, n = Some m /\ created b b' m
  | BFree c => b' = b \/ exists d, c = Some d /\ freed b b' d
  end.
Lemma bstep_ok b x : BI b -> careful b x -> exists b' l, bstep b x = Ok b' /\ BI b' /\ acts b x b' l /\ did b x b'.
Proof.
  intros B C. destruct x as [a|n| |[c|]]; cbn [bstep].
  - destruct (step_ok _ _ (bi_inv _ B) (proj1 C)) as (s & E & I). rewrite E. cbn [bind]. eexists _, [a]. split; [reflexivity|]. split; [apply do_BI with a; auto|]. split; [apply acts_one; auto; apply C|]. split; auto.
  - destruct (callable (s_stack (b_base b))) eqn:K.
    + destruct (new_ok b n B K) as (b' & l & E & A & I & H). exists b', l. split; auto. split; [|split; [auto|destruct n; [right; eauto|left; auto]]]. destruct n as [n|]; [eapply created_BI; eauto|]. destruct H as (H & CA).
      destruct b' as [s cs]. cbn in *. subst cs. apply BI_keep; auto; intros; destruct (calmly_same _ _ (c_watch x) CA) as (A1 & A2 & _) || destruct (calmly_same _ _ w CA) as (A1 & A2 & _); congruence || (rewrite A1; auto) || (rewrite A2; auto).
    + exists b, []. split; auto. split; auto. split; [unfold acts; cbn; auto|]. cbn. left. split; auto. apply calmly_refl.
  - destruct (step_ok (b_base b) (ACall CNewFail) (bi_inv _ B) Logic.I) as (s & E & I). rewrite E. cbn [bind]. eexists _, [ACall CNewFail]. split; [reflexivity|].
    split; [apply do_BI with (ACall CNewFail); cbn; auto|]. split; [apply acts_one; cbn; auto|]. cbn. split; auto. cbn [step] in E. destruct (callable _); [|injection E as <-; apply calmly_refl]. apply calls in E. exact E.
  - destruct C as (x & T). destruct (callable (s_stack (b_base b))) eqn:K; [|exists b, []; split; auto; split; auto; split; [unfold acts; cbn; auto|left; auto]].
    destruct (free_ok b c x B K T) as (b' & l & E & A & I & H). exists b', l. split; auto. split; [eapply freed_BI; eauto|]. split; auto. right. eauto.
  - exists b, []. destruct (callable _); split; auto; split; auto; (split; [unfold acts; cbn; auto|left; auto]).
Qed.

(* ---------------- runs ---------------- *)
Lemma run_comp l l2 s : run s (l ++ l2) = do t <- run s l; run t l2.
Proof. revert s. induction l as [|a l IH]; intros s; cbn [run app bind]; auto. destruct (step s a); cbn [bind]; auto. Qed.
Lemma along_comp P l l2 s t : all_along P s l -> run s l = Ok t -> all_along P t l2 -> all_along P s (l ++ l2).
Proof.
  revert s. induction l as [|a l IH]; intros s H R K; cbn [run app all_along] in *; [injection R as <-; auto|]. destruct H as (H & G). split; auto. destruct (step s a); [|auto]. cbn [bind] in R. eauto.
Qed.
Lemma brun_comp l l2 b : brun b (l ++ l2) = do t <- brun b l; brun t l2.
Proof. revert b. induction l as [|a l IH]; intros s; cbn [brun app bind]; auto. destruct (bstep s a); cbn [bind]; auto. Qed.
Lemma ball_first P l l2 b : ball P b (l ++ l2) -> ball P b l.
Proof. revert b. induction l as [|a l IH]; intros b H; cbn in *; auto. destruct H as [H K]. split; auto. destruct (bstep b a); auto. Qed.
Lemma ball_rest P l l2 b t : ball P b (l ++ l2) -> brun b l = Ok t -> ball P t l2.
Proof.
  revert b. induction l as [|a l IH]; intros b H R; cbn [brun app ball] in *; [injection R as <-; auto|]. destruct H as [_ H]. destruct (bstep b a); [|discriminate]. eauto.
Qed.
Lemma brun_ok l : forall b, BI b -> ball careful b l -> exists b' l', brun b l = Ok b' /\ BI b' /\ run (b_base b) l' = Ok (b_base b') /\ all_along fair (b_base b) l' /\
  (ball bdistinct b l -> all_along distinct (b_base b) l').
Proof.
  induction l as [|x l IH]; intros b B C; cbn [brun ball] in *.
  - exists b, []. cbn. auto.
  - destruct C as (C & D). destruct (bstep_ok b x B C) as (b1 & l1 & E & B1 & (R1 & F1 & D1) & _). rewrite E in *. cbn [bind]. destruct (IH b1 B1 D) as (b2 & l2 & R & B2 & R2 & F2 & D2).
    exists b2, (l1 ++ l2). split; auto. split; auto. split; [rewrite run_comp, R1; exact R2|]. split; [eapply along_comp; eauto|]. intros (X & Y). eapply along_comp; eauto.
Qed.

(* ---------------- an identifier is used once ---------------- *)
Fixpoint cids (tr : list event) : list nat := match tr with [] => [] | EConnect _ id :: tr => id :: cids tr | _ :: tr => cids tr end.
Definition once (s : state) : Prop := NoDup (cids (s_trace s)) /\ Forall (fun j => (j < s_nid s)%nat) (cids (s_trace s)).
Lemma dull_cids evs tr : forallb dull evs = true -> cids (evs ++ tr) = cids tr.
Proof. induction evs as [|e evs IH]; cbn [forallb app]; [auto|]. intros H. apply andb_prop in H. destruct H as (H1 & H2). destruct e; try discriminate; cbn; auto. Qed.
Lemma calmly_cids s s' : calmly s s' -> cids (s_trace s') = cids (s_trace s) /\ s_nid s' = s_nid s.
Proof. intros (N & evs & E & D). rewrite E. split; auto. apply dull_cids, D. Qed.
Lemma once_same s s' : once s -> cids (s_trace s') = cids (s_trace s) /\ s_nid s' = s_nid s -> once s'.
Proof. intros O (E & N). unfold once. rewrite E, N. exact O. Qed.
Lemma once_step s a s' : once s -> step s a = Ok s' -> once s'.
Proof.
  intros O E. destruct a as [cl| | |sid r|fd n| |fd]; try (apply (once_same s _ O), calmly_cids, (step_calm _ _ _ E); discriminate).
  cbn [step] in E. destruct (callable (s_stack s)); [|injection E as <-; exact O]. apply calls in E. destruct cl as [n| |v|v|v|v|v id].
  - apply new_calm in E. destruct E as [(E & _)|(s1 & i & m & wd & y & E & ET & EN & _)]; [apply (once_same s _ O), calmly_cids, E|]. apply (once_same s _ O). rewrite ET, EN. apply calmly_cids, E.
  - apply (once_same s _ O), calmly_cids, E.
  - apply (once_same s _ O). apply calmly_cids in E. exact E.
  - apply (once_same s _ O). apply calmly_cids in E. exact E.
  - apply (once_same s _ O). apply calmly_cids in E. exact E.
  - destruct E as (E & N & _). destruct O as (O1 & O2). unfold once. rewrite E, N. cbn [cids]. split.
    + constructor; auto. intros H. rewrite Forall_forall in O2. specialize (O2 _ H). lia.
    + constructor; [lia|]. eapply Forall_impl; [|exact O2]. cbn. lia.
  - apply (once_same s _ O). destruct E as (E & N & _). rewrite E, N. auto.
Qed.
Lemma once_run l : forall s s', once s -> run s l = Ok s' -> once s'.
Proof. induction l as [|a l IH]; intros s s' O R; cbn [run] in R; [injection R as <-; auto|]. destruct (step s a) as [s1|] eqn:E; [|discriminate]. cbn [bind] in R. eapply IH; [eapply once_step; eauto|eauto]. Qed.
Lemma once_start : once start. Proof. split; constructor. Qed.
Lemma connected_cids tr w id : In id (connected tr w) -> In id (cids tr).
Proof.
  induction tr as [|e tr IH]; cbn; [auto|]. destruct e; cbn; auto.
  - destruct (Nat.eqb _ _); [|auto]. intros H. apply in_app_or in H. destruct H as [H|[H|[]]]; auto.
  - destruct (Nat.eqb _ _); [|auto]. intros H. apply filter_In in H. apply IH, H.
Qed.
Lemma cids_app a b : cids (a ++ b) = cids a ++ cids b.
Proof. induction a as [|e a IH]; cbn; auto. destruct e; cbn; auto. f_equal. auto. Qed.
(* not connected again *)
Lemma not_again new tr w id : NoDup (cids (new ++ tr)) -> In id (cids tr) -> In id (connected (new ++ tr) w) -> In id (connected tr w) /\ ~ In (EDisconnect w id) new.
Proof.
  intros N H. induction new as [|e new IH]; cbn [app]; [auto|]. intros K. 
  assert (N' : NoDup (cids (new ++ tr))) by (cbn [app] in N; destruct e; cbn [cids] in N; auto; inversion N; auto).
  assert (M : In id (cids (new ++ tr))) by (rewrite cids_app; apply in_or_app; auto).
  assert (X : In id (connected (new ++ tr) w) /\ e <> EDisconnect w id).
  { destruct e as [| | | | | | | | |v j|v j| | | | | | | | | |]; cbn [connected] in K; split; auto; try discriminate.
    - destruct (Nat.eqb w v); [|exact K]. apply in_app_or in K. destruct K as [K|[K|[]]]; [exact K|]. subst. cbn [app cids] in N. inversion N. contradiction.
    - destruct (Nat.eqb w v); [|exact K]. apply filter_In in K. apply K.
    - intros X. injection X as -> ->. rewrite Nat.eqb_refl in K. apply filter_In in K. destruct K as (_ & K). rewrite Nat.eqb_refl in K. discriminate. }
  destruct X as (X & Y). destruct (IH N' X) as (A & B). split; auto. intros [Z|Z]; auto.
Qed.
(* an event told to a watch is told to each handler *)
Lemma told tr c w id : follows tr c -> forall new old i wd, tr = new ++ ELook i wd (Some w) :: old -> In id (connected old w) ->
  (exists e, e_wd e = wd /\ In (ECall w id e) new) \/ In (EDisconnect w id) new \/ exists e ids l, c = Telling i w e ids l /\ In id ids /\ e_wd e = wd.
Proof.
  induction 1 as [|j d l tr F IH EN|j e l tr F IH RG|j e v l tr F IH RG|j v e k ids l tr F IH|v k c tr F IH|j v e l tr F IH|j tr F IH|e c tr F IH TE]; intros new old i wd E C.
  - destruct new; discriminate.
  - destruct new as [|x new]; [discriminate|]. injection E as <- E. destruct (IH _ _ _ _ E C) as [(e & A & B)|[A|(e & ids & q & A & _)]]; [left; exists e; cbn; auto|right; left; cbn; auto|discriminate].
  - destruct new as [|x new]; [discriminate|]. injection E as <- E. destruct (IH _ _ _ _ E C) as [(f & A & B)|[A|(f & ids & q & A & _)]]; [left; exists f; cbn; auto|right; left; cbn; auto|discriminate].
  - destruct new as [|x new].
    + injection E as E1 E2 E3 E4. subst. right. right. exists e, (connected old w), l. auto.
    + injection E as <- E. destruct (IH _ _ _ _ E C) as [(f & A & B)|[A|(f & ids & q & A & _)]]; [left; exists f; cbn; auto|right; left; cbn; auto|discriminate].
  - destruct new as [|x new]; [discriminate|]. injection E as <- E. destruct (IH _ _ _ _ E C) as [(f & A & B)|[A|(f & js & q & A & B & D)]]; [left; exists f; cbn; auto|right; left; cbn; auto|].
    injection A as <- <- <- <- <-. destruct B as [->|B]; [left; exists e; cbn; auto|right; right]. exists e, ids, l. auto.
  - destruct new as [|x new]; [discriminate|]. injection E as <- E. destruct (IH _ _ _ _ E C) as [(f & A & B)|[A|(f & js & q & A & B & D)]]; [left; exists f; cbn; auto|right; left; cbn; auto|].
    subst c. cbn [disconnect]. destruct (Nat.eqb v w) eqn:Q; [apply Nat.eqb_eq in Q; subst v|right; right; eauto 8].
    destruct (Nat.eq_dec id k) as [->|NE]; [right; left; cbn; auto|right; right]. exists f, (filter (fun j => negb (Nat.eqb j k)) js), q. split; auto. split; auto. apply filter_In. split; auto. apply negb_true_iff, Nat.eqb_neq. auto.
  - destruct (IH _ _ _ _ E C) as [A|[A|(f & js & q & A & B & D)]]; auto. injection A as <- <- <- <- <-. destruct B.
  - destruct new as [|x new]; [discriminate|]. injection E as <- E. destruct (IH _ _ _ _ E C) as [(f & A & B)|[A|(f & js & q & A & B & D)]]; [left; exists f; cbn; auto|right; left; cbn; auto|discriminate].
  - destruct new as [|x new]; [injection E as -> _; discriminate|]. injection E as <- E. destruct (IH _ _ _ _ E C) as [(f & A & B)|[A|A]]; [left; exists f; cbn; auto|right; left; cbn; auto|right; right; exact A].
Qed.

(* ---------------- references of the callbacks only ---------------- *)
Definition even (b : bstate) : Prop := forall w, owned (s_trace (b_base b)) w = users (b_cbs b) w.
Lemma even_step b x b' : even b -> alone x -> did b x b' -> even b'.
Proof.
  intros V A D w. destruct x as [a|n| |c]; cbn [did] in D.
  - destruct D as (E & ->). destruct a as [cl| | |sid r|fd n| |fd]; try (destruct (calmly_same _ _ w (step_calm _ _ _ E ltac:(discriminate))) as (X & _); rewrite X; apply V).
    cbn [step] in E. destruct (callable (s_stack (b_base b))); [|injection E as <-; apply V]. apply calls in E. destruct cl as [n| |v|v|v|v|v id]; try destruct A.
    + destruct (calmly_same _ _ w E) as (X & _). rewrite X. apply V.
    + destruct E as (E & _). rewrite E. apply V.
    + destruct E as (E & _). rewrite E. apply V.
  - destruct D as [(-> & CA)|(m & _ & v & id & i & wd & C & _ & _ & _ & O & _)]; [destruct (calmly_same _ _ w CA) as (X & _); rewrite X; apply V|]. rewrite O, C, users_app. cbn [c_watch]. rewrite (Nat.eqb_sym v w), V. lia.
  - destruct D as (CA & ->). destruct (calmly_same _ _ w CA) as (X & _); rewrite X; apply V.
  - destruct D as [->|(d & _ & v & id & T & C & O & _)]; [apply V|]. rewrite O, C, (users_free _ _ _ T w). cbn [c_watch]. rewrite (Nat.eqb_sym v w), V. lia.
Qed.
Lemma even_run l : forall b b', BI b -> even b -> ball careful b l -> Forall alone l -> brun b l = Ok b' -> even b'.
Proof.
  induction l as [|x l IH]; intros b b' B V C A R; cbn [brun ball] in *; [injection R as <-; auto|]. destruct C as (C & D). destruct (bstep_ok b x B C) as (b1 & l1 & E & B1 & _ & DD). rewrite E in *. cbn [bind] in R.
  inversion A; subst. eapply IH; [exact B1|eapply even_step; eauto|auto|auto|exact R].
Qed.
Lemma users_none l : (forall c x, nth_error l c <> Some (Some x)) -> forall w, users l w = 0.
Proof. induction l as [|[x|] l IH]; intros H w; cbn; auto; [destruct (H O x); auto|]. apply IH. intros c x. apply (H (S c)). Qed.
