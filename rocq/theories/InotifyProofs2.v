(* The functions preserve the invariant *)
From Coq Require Import Sorting.Sorted.
From Verif Require Import Base InotifyModel InotifySpec InotifyParse InotifyProofs.

Ltac fields := cbn [emit set_fds set_insts set_var set_srcs set_watches set_nid set_stack s_trace s_watches s_insts s_stack s_nid s_nsrc s_srcs s_fds s_var
  set_refs set_table set_src set_buf i_refs i_fd i_watches i_src i_buf set_wrefs set_wd set_handlers w_refs w_inst w_wd w_handlers] in *.

Lemma loops_nonneg k : 0 <= loops k.
Proof. induction k as [|f k IH]; cbn [loops]; [lia|]. destruct f; lia. Qed.

(* an event which is not about instances coming and going *)
Definition aside (e : event) : bool := match e with EInit _ _ | EGoneInst _ => false | _ => true end.
Lemma co_init_emit s e xw : aside e = true -> common s xw -> forall j, (exists fd, In (EInit j fd) (e :: s_trace s)) <-> (j < length (s_insts s))%nat.
Proof.
  intros N C j. rewrite <- (co_init _ _ C). cbn [In]. split; [intros [y [H|H]]; [subst; discriminate|eauto]|intros [y H]; eauto].
Qed.
Lemma co_gone_emit s e xw : aside e = true -> common s xw -> forall j, In (EGoneInst j) (e :: s_trace s) <-> nth_error (s_insts s) j = Some None.
Proof. intros N C j. rewrite <- (co_gone _ _ C). cbn [In]. split; [intros [H|H]; [subst; discriminate|auto]|auto]. Qed.

Lemma gone_upd (h : list (option instance)) i q q' j : live h i q -> nth_error (upd h i (Some q')) j = Some None <-> nth_error h j = Some None.
Proof.
  intros L. destruct (Nat.eq_dec i j) as [<-|N].
  - rewrite nth_error_upd_eq by apply (live_lt _ _ _ L). unfold live in L. rewrite L. split; discriminate.
  - rewrite nth_error_upd_ne by auto. reflexivity.
Qed.

Lemma live_put_watch (P : nat -> watch -> Prop) h w x x' : live h w x -> (forall v y, live h v y -> P v y) -> P w x' -> forall v y, live (upd h w (Some x')) v y -> P v y.
Proof. intros L H Hx v y K. apply live_upd in K. destruct K as [[<- E]|[_ K]]; [injection E as <-|]; auto. Qed.

Lemma stop_ok s xw i q xi w x : common s xw -> alive s i q xi -> live (s_watches s) w x ->
  exists s' q' x', watch_stop s w = Ok s' /\ common s' xw /\ alive s' i q' xi /\ live (s_watches s') w x' /\ w_wd x' < 0 /\ w_refs x' = w_refs x /\
    s_stack s' = s_stack s /\ i_refs q' = i_refs q.
Proof.
  intros C A L. unfold watch_stop. rewrite (get_live _ _ _ L). cbn [bind]. destruct (Z.geb_spec (w_wd x) 0) as [G|G].
  2: { exists s, q, x. repeat split; auto; try apply C; try apply A. }
  rewrite (al_w _ _ _ _ A _ _ L). rewrite (get_live _ _ _ (al_live _ _ _ _ A)). cbn [bind].
  rewrite (put_inst_live _ _ _ _ (al_live _ _ _ _ A)). cbn [bind].
  set (q' := set_table q (t_remove (i_watches q) (w_wd x))).
  erewrite put_watch_live by exact L. cbn [bind].
  exists (emit (set_watches (set_fds (set_insts s (upd (s_insts s) i (Some q'))) (krm (s_fds s) (i_fd q) (w_wd x))) (upd (s_watches s) w (Some (set_wd x (-1))))) (EStop w i (w_wd x))),
    q', (set_wd x (-1)).
  split; [reflexivity|]. fields.
  assert (CH : forall v y, live (upd (s_watches s) w (Some (set_wd x (-1)))) v y -> exists z, live (s_watches s) v z /\ w_refs y = w_refs z /\ w_handlers y = w_handlers z /\ w_inst y = w_inst z).
  { eapply live_put_watch; [exact L| |].
    - intros v y H. exists y. auto.
    - exists x. auto. }
  split; [|split; [|repeat split; auto; try lia]].
  - pose proof C as CC; destruct CC. constructor; fields; auto.
    + intros v. rewrite wrefs_upd by apply (live_lt _ _ _ L). cbn. destruct (Nat.eqb_spec v w) as [->|]; [rewrite <- (wrefs_live _ _ _ L)|]; apply co_refs.
    + intros v y H. destruct (CH _ _ H) as (z & Hz & -> & _). eauto.
    + intros v y H. destruct (CH _ _ H) as (z & Hz & _ & -> & _). cbn. eauto.
    + intros v H. rewrite upd_length in H. cbn. auto.
    + intros j wd H. rewrite upd_length in H. cbn [registered]. destruct (Nat.eqb j i && (wd =? w_wd x)); auto.
    + intros j. rewrite upd_length. eapply co_init_emit; [reflexivity|exact C].
    + intros j. rewrite gone_upd by apply (al_live _ _ _ _ A). eapply co_gone_emit; [reflexivity|exact C].
  - pose proof A as AA; destruct AA. constructor; fields; auto.
    + eapply live_upd_eq; eauto.
    + eapply one_upd; eauto.
    + intros v y H. destruct (CH _ _ H) as (z & Hz & _ & _ & ->). eauto.
    + intros wd. unfold q'. cbn. rewrite lookup_remove, Nat.eqb_refl. cbn. destruct (wd =? w_wd x); auto.
    + intros wd v H. unfold q' in H. cbn in H. rewrite lookup_remove in H. destruct (Z.eqb_spec wd (w_wd x)); [discriminate|].
      destruct (al_tab _ _ H) as (y & Hy & H1 & H2). exists y. split; auto. apply live_upd_ne; auto. intros <-.
      rewrite (live_eq _ _ _ _ Hy L) in H1. congruence.
    + apply krm_ok; auto.
    + cbn. rewrite (nlive_put _ _ _ _ L). auto.
    + eapply tale_other; [| | |exact al_tale]; auto.
  - eapply live_upd_eq, L.
Qed.

Definition one (w v : nat) : Z := if Nat.eqb v w then 1 else 0.

Lemma common_ext s xw xw' : (forall w, xw w = xw' w) -> common s xw -> common s xw'.
Proof. intros E C. destruct C. constructor; auto. intros w. rewrite <- E. auto. Qed.

(* a watch gets or loses references *)
Lemma wrefs_put s i q xi xw w x n : common s xw -> alive s i q xi -> live (s_watches s) w x -> 1 <= n ->
  let s' := set_watches s (upd (s_watches s) w (Some (set_wrefs x n))) in
  common s' (fun v => if Nat.eqb v w then xw w + (n - w_refs x) else xw v) /\ alive s' i q xi.
Proof.
  intros C A L Hn. cbn [set_watches].
  assert (CH : forall v y, live (upd (s_watches s) w (Some (set_wrefs x n))) v y -> exists z, live (s_watches s) v z /\ w_handlers y = w_handlers z /\ w_inst y = w_inst z).
  { eapply live_put_watch; [exact L| |].
    - intros v y H. exists y. auto.
    - exists x. auto. }
  split.
  - destruct C. constructor; fields; auto.
    + intros v. rewrite wrefs_upd by apply (live_lt _ _ _ L). cbn. pose proof (co_refs v). destruct (Nat.eqb_spec v w) as [->|]; auto. rewrite (wrefs_live _ _ _ L) in H. lia.
    + apply (live_put_watch (fun v y => 1 <= w_refs y) _ _ _ _ L); auto.
    + intros v y H. destruct (CH _ _ H) as (z & Hz & -> & _). cbn. eauto.
    + intros v H. rewrite upd_length in H. cbn. auto.
  - destruct A. constructor; fields; auto.
    + intros v y H. destruct (CH _ _ H) as (z & Hz & _ & ->). eauto.
    + intros wd v H. destruct (al_tab _ _ H) as (y & Hy & H1 & H2). destruct (Nat.eq_dec w v) as [<-|N].
      * exists (set_wrefs x n). rewrite (live_eq _ _ _ _ Hy L) in H1. split; [eapply live_upd_eq, L|auto].
      * exists y. split; auto. apply live_upd_ne; auto.
    + rewrite (nlive_put _ _ _ _ L). auto.
Qed.

Lemma wunref_ok s i q w x : common s (one w) -> alive s i q 0 -> live (s_watches s) w x -> 1 <= i_refs q ->
  (forall sid, s_stack s <> [FEnd sid false]) -> exists s', watch_unref s w = Ok s' /\ inv s'.
Proof.
  intros C A L R F. unfold watch_unref. rewrite (get_live _ _ _ L). cbn [bind]. rewrite (put_watch_live _ _ _ _ L). cbn [bind].
  pose proof (co_pos _ _ C _ _ L) as P. destruct (Z.eqb_spec (w_refs x - 1) 0) as [Z0|Z0].
  2: { destruct (wrefs_put _ _ _ _ _ _ _ (w_refs x - 1) C A L ltac:(lia)) as [C' A']. cbn in C', A'.
       eexists. split; [reflexivity|]. split; [|right; right; exists i, q; auto].
       eapply common_ext; [|exact C']. intros v. cbn. unfold one, zero. rewrite Nat.eqb_refl. destruct (Nat.eqb v w); lia. }
  (* the reference count is 0 for a while, but nothing looks at it: stop commutes *)
  assert (W0 : exists s1 q1 x1, watch_stop (set_watches s (upd (s_watches s) w (Some (set_wrefs x (w_refs x - 1))))) w = Ok s1 /\ live (s_watches s1) w x1 /\
    common (set_watches s1 (upd (s_watches s1) w (Some (set_wrefs x1 1)))) (one w) /\ alive (set_watches s1 (upd (s_watches s1) w (Some (set_wrefs x1 1)))) i q1 0 /\
    w_wd x1 < 0 /\ s_stack s1 = s_stack s /\ i_refs q1 = i_refs q).
  { destruct (stop_ok _ _ _ _ _ _ _ C A L) as (s' & q' & x' & E & C' & A' & L' & D' & R' & K' & Q').
    unfold watch_stop in E |- *. rewrite (get_live _ _ _ L) in E. cbn [bind] in E.
    change (s_watches (set_watches s (upd (s_watches s) w (Some (set_wrefs x (w_refs x - 1)))))) with (upd (s_watches s) w (Some (set_wrefs x (w_refs x - 1)))).
    erewrite (get_live (upd (s_watches s) w (Some (set_wrefs x (w_refs x - 1))))) by (eapply live_upd_eq, L). cbn [bind set_wrefs w_wd w_inst].
    destruct (Z.geb_spec (w_wd x) 0) as [G|G].
    - rewrite (al_w _ _ _ _ A _ _ L) in *. rewrite (get_live _ _ _ (al_live _ _ _ _ A)) in E. cbn [bind] in E.
      change (s_insts (set_watches s (upd (s_watches s) w (Some (set_wrefs x (w_refs x - 1)))))) with (s_insts s). rewrite (get_live _ _ _ (al_live _ _ _ _ A)). cbn [bind].
      rewrite (put_inst_live _ _ _ _ (al_live _ _ _ _ A)) in E. cbn [bind] in E.
      erewrite put_inst_live by apply (al_live _ _ _ _ A). cbn [bind].
      erewrite put_watch_live in E by exact L. cbn [bind] in E.
      erewrite put_watch_live by (eapply live_upd_eq, L). cbn [bind]. injection E as <-.
      eexists _, q', _. split; [reflexivity|]. fields.
      assert (U : forall (h : list (option watch)) n a b, upd (upd h n a) n b = upd h n b).
      { clear. intros h; induction h as [|y h IH]; intros [|n] a b; cbn; auto. f_equal. apply IH. }
      rewrite !U in *. split; [eapply live_upd_eq, L|]. cbn [set_wd set_wrefs w_refs w_inst w_wd w_handlers] in *.
      assert (EX : set_wd x (-1) = Watch 1 (w_inst x) (-1) (w_handlers x)).
      { unfold set_wd. f_equal. lia. }
      rewrite EX in *. split; [exact C'|]. split; [exact A'|]. split; [lia|auto].
    - injection E as <-. eexists _, q, _. split; [reflexivity|]. fields. split; [eapply live_upd_eq, L|].
      assert (U : forall (h : list (option watch)) n a b, upd (upd h n a) n b = upd h n b).
      { clear. intros h; induction h as [|y h IH]; intros [|n] a b; cbn; auto. f_equal. apply IH. }
      rewrite U. assert (EX : set_wrefs (set_wrefs x (w_refs x - 1)) 1 = x).
      { destruct x; cbn in *. unfold set_wrefs; cbn. f_equal. lia. }
      rewrite EX. assert (upd (s_watches s) w (Some x) = s_watches s) as ->.
      { clear - L. unfold live in L. revert w L. induction (s_watches s) as [|y h IH]; intros [|n] L; cbn in *; try congruence. f_equal. auto. }
      split; [destruct s; exact C|]. split; [destruct s; exact A|]. split; [cbn; lia|auto]. }
  destruct W0 as (s1 & q1 & x1 & -> & L1 & C1 & A1 & D1 & K1 & Q1). cbn [bind].
  rewrite (release_live _ _ _ L1). cbn [bind].
  assert (CX : common (emit (set_watches s1 (upd (s_watches s1) w None)) (EGone w)) zero).
  { apply common_emit; [reflexivity|]. pose proof (co_owned _ _ C1 w) as O1. pose proof (co_refs _ _ C1) as RF. fields.
    pose proof (emits_nonneg w (s_stack s1)) as EM.
    destruct C1. constructor; fields; auto.
    - intros v. pose proof (RF v) as RV. rewrite wrefs_upd in RV |- * by apply (live_lt _ _ _ L1). unfold one, zero in *. destruct (Nat.eqb_spec v w) as [E|N]; [subst v|]; cbn in RV; lia.
    - intros v y H. apply live_upd in H. destruct H as [[_ H]|[N H]]; [discriminate|]. apply (co_pos v). apply live_upd_ne; auto.
    - intros v y H. apply live_upd in H. destruct H as [[_ H]|[N H]]; [discriminate|]. apply co_hand. apply live_upd_ne; auto.
    - intros v H. apply co_new. rewrite upd_length in *. auto. }
  assert (AX : alive (emit (set_watches s1 (upd (s_watches s1) w None)) (EGone w)) i q1 1).
  { apply alive_emit; [reflexivity|]. destruct A1. constructor; fields; auto.
    - intros v y H. apply live_upd in H. destruct H as [[_ H]|[N H]]; [discriminate|]. apply (al_w v). apply live_upd_ne; auto.
    - intros wd v H. destruct (al_tab _ _ H) as (y & Hy & H1 & H2). apply live_upd in Hy. destruct Hy as [[<- Hy]|[N Hy]].
      + injection Hy as <-. cbn in H1. lia.
      + exists y. split; auto. apply live_upd_ne; auto.
    - rewrite (nlive_release _ _ _ L1). rewrite (nlive_put _ _ _ _ L1) in al_refs. lia. }
  rewrite (al_w _ _ _ _ A _ _ L).
  eapply unref_ok; [exact CX|exact AX|]. intros _ sid. cbn. rewrite K1. apply F.
Qed.

(* ---------------- calls ---------------- *)

Lemma inv_alive s w : inv s -> 1 <= owned (s_trace s) w + emits w (s_stack s) ->
  common s zero /\ exists i q x, alive s i q 0 /\ 1 <= i_refs q /\ live (s_watches s) w x.
Proof.
  intros [C H] O. split; auto. pose proof (co_refs _ _ C w) as R. unfold zero in R.
  destruct H as [H|[(i & q & H)|(i & q & A & Q)]].
  - destruct H as (_ & _ & H & _). rewrite wrefs_dead in R by (intros x; apply nlive_0; auto). lia.
  - destruct H as (_ & _ & _ & H & _). rewrite wrefs_dead in R by (intros x; apply nlive_0; auto). lia.
  - exists i, q. unfold wrefs in R. destruct (nth_error (s_watches s) w) as [[x|]|] eqn:E; try lia. exists x. auto.
Qed.

Lemma phase_handler i k srcs src w id : phase i k srcs src -> In (FHandler w id) k -> 1 <= emits w k.
Proof.
  intros P H. destruct P; cbn [In] in H; repeat (destruct H as [H|H]; try discriminate H); try tauto.
  injection H as -> ->. cbn. rewrite Nat.eqb_refl. lia.
Qed.
Lemma handler_emits s i q w id : alive s i q 0 -> In (FHandler w id) (s_stack s) -> 1 <= emits w (s_stack s).
Proof. intros A. eapply phase_handler, A. Qed.

Lemma usable_alive s w : inv s -> usable s w -> common s zero /\ exists i q x, alive s i q 0 /\ 1 <= i_refs q /\ live (s_watches s) w x.
Proof.
  intros I U. apply inv_alive; auto. pose proof (emits_nonneg w (s_stack s)). destruct I as [C H0]. pose proof (co_owned _ _ C w).
  destruct U as [U|[id U]]; [lia|]. destruct H0 as [H0|[(i & q & H0)|(i & q & A & Q)]].
  - destruct H0 as (_ & _ & _ & _ & [K|(sid & ok & K)] & _); rewrite K in U; cbn in U; [tauto|]. destruct U as [U|[]]. discriminate.
  - destruct H0 as (_ & _ & _ & _ & _ & [K|(sid & ok & K)] & _); rewrite K in U; cbn in U; repeat (destruct U as [U|U]; try discriminate U); tauto.
  - pose proof (handler_emits _ _ _ _ _ A U). lia.
Qed.

Lemma callable_phase s i q xi : alive s i q xi -> callable (s_stack s) = true -> forall sid, s_stack s <> [FEnd sid false].
Proof. intros A H sid E. rewrite E in H. discriminate. Qed.

Lemma ref_ok s w : inv s -> usable s w -> exists s', do_call s (CRef w) = Ok s' /\ inv s'.
Proof.
  intros I U. destruct (usable_alive _ _ I U) as (C & i & q & x & A & Q & L). cbn [do_call]. rewrite (get_live _ _ _ L). cbn [bind].
  rewrite (put_watch_live _ _ _ _ L). cbn [bind]. eexists. split; [reflexivity|].
  pose proof (co_pos _ _ C _ _ L). destruct (wrefs_put _ _ _ _ _ _ _ (w_refs x + 1) C A L ltac:(lia)) as [C' A']. cbn zeta in C', A'.
  set (s' := set_watches s (upd (s_watches s) w (Some (set_wrefs x (w_refs x + 1))))) in *. split.
  - pose proof C' as CC; destruct CC. constructor; fields; auto.
    + intros v. cbn [owned]. specialize (co_owned v). destruct (Nat.eqb v w); fields; lia.
    + intros v. rewrite co_refs. unfold zero. cbn [owned]. destruct (Nat.eqb v w); lia.
    + eapply co_init_emit; [reflexivity|exact C'].
    + eapply co_gone_emit; [reflexivity|exact C'].
  - right. right. exists i, q. split; auto. destruct A'. constructor; fields; auto. eapply tale_other; [| | |exact al_tale]; auto.
Qed.

(* the client gives a reference away *)
Lemma give_ok s i q w e : e = EUnref w \/ e = EDestroy w -> common s zero -> alive s i q 0 -> 1 <= owned (s_trace s) w ->
  common (emit s e) (one w) /\ alive (emit s e) i q 0.
Proof.
  intros E C A O. split.
  - pose proof C as CC; destruct CC. constructor; fields; auto.
    + intros v. specialize (co_owned v). destruct E; subst e; cbn; destruct (Nat.eqb_spec v w); subst; lia.
    + intros v. rewrite co_refs. unfold zero, one. destruct E; subst e; cbn; destruct (Nat.eqb v w); lia.
    + destruct E; subst e; auto.
    + destruct E; subst e; auto.
    + destruct E; subst e; auto.
    + destruct E; subst e; auto.
    + eapply co_init_emit; [destruct E; subst e; reflexivity|exact C].
    + eapply co_gone_emit; [destruct E; subst e; reflexivity|exact C].
  - destruct A. constructor; fields; auto.
    + destruct E; subst e; auto.
    + eapply tale_other; [| | |exact al_tale]; auto; destruct E; subst e; auto.
Qed.

Lemma unref_call_ok s w : inv s -> callable (s_stack s) = true -> 1 <= owned (s_trace s) w -> exists s', do_call s (CUnref w) = Ok s' /\ inv s'.
Proof.
  intros I K O. pose proof (emits_nonneg w (s_stack s)). destruct (inv_alive _ w I) as (C & i & q & x & A & Q & L); [lia|]. cbn [do_call].
  destruct (give_ok s i q w (EUnref w)) as [C' A']; auto. eapply wunref_ok; eauto. eapply callable_phase; eauto.
Qed.
Lemma destroy_call_ok s w : inv s -> callable (s_stack s) = true -> 1 <= owned (s_trace s) w -> exists s', do_call s (CDestroy w) = Ok s' /\ inv s'.
Proof.
  intros I K O. pose proof (emits_nonneg w (s_stack s)). destruct (inv_alive _ w I) as (C & i & q & x & A & Q & L); [lia|]. cbn [do_call].
  destruct (give_ok s i q w (EDestroy w)) as [C' A']; auto.
  destruct (stop_ok _ _ _ _ _ w x C' A' L) as (s1 & q1 & x1 & -> & C1 & A1 & L1 & _ & _ & K1 & Q1). cbn [bind].
  eapply wunref_ok; eauto; [lia|]. rewrite K1. eapply callable_phase; eauto.
Qed.

Lemma filter_filter {A} (f g : A -> bool) l : filter f (filter g l) = filter g (filter f l).
Proof.
  induction l as [|a l IH]; cbn; auto. destruct (g a) eqn:G; destruct (f a) eqn:F; cbn; rewrite ?F, ?G; rewrite IH; auto.
Qed.

Lemma incr_weaken n m l : (n <= m)%nat -> incr n l -> incr m l.
Proof. intros H [A B]. split; auto. eapply Forall_impl; [|exact B]. cbn. lia. Qed.
Lemma incr_app n l : (1 <= n)%nat -> incr n l -> incr (S n) (l ++ [n]).
Proof.
  intros Hn [A B]. split.
  - induction l as [|a l IH]; cbn; [repeat constructor|]. inversion A; inversion B; subst. constructor; auto.
    apply Forall_app. split; auto. constructor; [lia|constructor].
  - apply Forall_app. split; [eapply Forall_impl; [|exact B]; cbn; lia|]. constructor; [lia|constructor].
Qed.
Lemma incr_filter n f l : incr n l -> incr n (filter f l).
Proof.
  intros [A B]. split.
  - induction A as [|a l A IH F]; cbn; [constructor|]. inversion B; subst. destruct (f a); auto. constructor; auto.
    rewrite Forall_forall in *. intros y Hy. apply filter_In in Hy. apply F, Hy.
  - rewrite Forall_forall in *. intros y Hy. apply filter_In in Hy. apply B, Hy.
Qed.


Lemma handlers_put s i q w x l e : common s zero -> alive s i q 0 -> live (s_watches s) w x ->
  telling e = false \/ (exists id, e = EDisconnect w id) -> aside e = true ->
  (forall v, owned (e :: s_trace s) v = owned (s_trace s) v) -> (forall j wd, registered (e :: s_trace s) j wd = registered (s_trace s) j wd) ->
  (forall v, connected (e :: s_trace s) v = if Nat.eqb v w then l else connected (s_trace s) v) ->
  forall nid, (s_nid s <= nid)%nat -> incr nid l -> tale (i_buf q) nid (s_stack s) (e :: s_trace s) -> 1 <= i_refs q ->
  inv (emit (set_nid (set_watches s (upd (s_watches s) w (Some (set_handlers x l)))) nid) e).
Proof.
  intros C A L T AS OW RG CN nid Hn IL TL Q. split.
  - pose proof C as CC; destruct CC. constructor; fields; auto.
    + intros v. rewrite OW. auto.
    + intros v. rewrite OW, wrefs_upd by apply (live_lt _ _ _ L). cbn. rewrite <- co_refs. destruct (Nat.eqb_spec v w) as [->|]; auto. symmetry. apply wrefs_live, L.
    + apply (live_put_watch (fun v y => 1 <= w_refs y) _ _ _ _ L); eauto. cbn. eauto.
    + intros v y H. apply live_upd in H. rewrite CN. destruct H as [[<- H]|[N H]].
      * injection H as <-. rewrite Nat.eqb_refl. reflexivity.
      * destruct (Nat.eqb_spec v w); [congruence|]. eauto.
    + intros v. rewrite CN. destruct (Nat.eqb v w); auto. eapply incr_weaken; eauto.
    + intros v H. rewrite upd_length in H. rewrite CN. destruct (Nat.eqb_spec v w) as [->|]; auto. pose proof (live_lt _ _ _ L). lia.
    + intros j wd H. rewrite RG. auto.
    + eapply co_init_emit; [auto|exact C].
    + eapply co_gone_emit; [auto|exact C].
    + lia.
  - right. right. exists i, q. split; auto. destruct A. constructor; fields; auto.
    + apply (live_put_watch (fun v y => w_inst y = i) _ _ _ _ L); eauto. cbn. eauto.
    + intros wd. rewrite RG. auto.
    + intros wd v H. destruct (al_tab _ _ H) as (y & Hy & H1 & H2). destruct (Nat.eq_dec w v) as [<-|N].
      * exists (set_handlers x l). rewrite (live_eq _ _ _ _ Hy L) in H1. split; [eapply live_upd_eq, L|auto].
      * exists y. split; auto. apply live_upd_ne; auto.
    + rewrite (nlive_put _ _ _ _ L). auto.
Qed.

Lemma connect_ok s w : inv s -> usable s w -> exists s', do_call s (CConnect w) = Ok s' /\ inv s'.
Proof.
  intros I U. destruct (usable_alive _ _ I U) as (C & i & q & x & A & Q & L). cbn [do_call]. rewrite (get_live _ _ _ L). cbn [bind].
  rewrite (put_watch_live _ _ _ _ L). cbn [bind]. eexists. split; [reflexivity|].
  rewrite (co_hand _ _ C _ _ L). eapply handlers_put; eauto.
  - intros v. cbn. destruct (Nat.eqb_spec v w) as [->|]; reflexivity.
  - apply incr_app; [apply (co_nid _ _ C)|apply (co_incr _ _ C)].
  - cbn [s_nid set_watches]. eapply tale_other; [| | |exact (al_tale _ _ _ _ A)]; auto. intros last max v Hm. cbn [connected].
    destruct (Nat.eqb_spec v w) as [->|]; auto. rewrite filter_app. cbn [filter]. unfold within at 2.
    destruct (Nat.ltb_spec (s_nid s) max); [lia|]. rewrite andb_false_r, app_nil_r. reflexivity.
Qed.

Lemma tale_disconnect buf nid k tr w id : tale buf nid k tr -> tale buf nid k (EDisconnect w id :: tr).
Proof.
  unfold tale.
  assert (G : forall i v wd m c path last max o n, tale_emit buf nid tr i v wd m c path last max o n -> tale_emit buf nid (EDisconnect w id :: tr) i v wd m c path last max o n).
  { intros i v wd m c path last max o n (p & ev & F & H1 & H2 & H3 & H4 & H5 & H6). exists p, ev.
    refine (conj _ (conj H1 (conj H2 (conj H3 (conj H4 (conj H5 H6)))))).
    apply (fo_disconnect w id) in F. cbn [disconnect] in F. cbn [connected]. rewrite (Nat.eqb_sym v w). destruct (Nat.eqb w v); auto.
    rewrite filter_filter in F. exact F. }
  assert (I : follows tr Idle -> follows (EDisconnect w id :: tr) Idle) by (intros F; apply (fo_disconnect w id Idle tr F)).
  destruct k as [|f k]; auto. destruct f; auto.
  - intros (p & F & H). exists p. split; auto. apply (fo_disconnect w id _ tr F).
  - destruct k as [|f k]; auto. destruct f; auto.
  - destruct k as [|f k]; auto. destruct f; auto. destruct k as [|f k]; auto. destruct f; auto.
Qed.

Lemma disconnect_ok s w id : inv s -> usable s w -> exists s', do_call s (CDisconnect w id) = Ok s' /\ inv s'.
Proof.
  intros I U. destruct (usable_alive _ _ I U) as (C & i & q & x & A & Q & L). cbn [do_call]. rewrite (get_live _ _ _ L). cbn [bind].
  rewrite (put_watch_live _ _ _ _ L). cbn [bind]. eexists. split; [reflexivity|].
  rewrite (co_hand _ _ C _ _ L).
  replace (set_watches s (upd (s_watches s) w (Some (set_handlers x (filter (fun j : nat => negb (Nat.eqb j id)) (connected (s_trace s) w)))))) with
    (set_nid (set_watches s (upd (s_watches s) w (Some (set_handlers x (filter (fun j : nat => negb (Nat.eqb j id)) (connected (s_trace s) w)))))) (s_nid s)) by (destruct s; reflexivity).
  eapply handlers_put; eauto.
  - intros v. cbn. destruct (Nat.eqb_spec v w) as [->|]; reflexivity.
  - apply incr_filter, (co_incr _ _ C).
  - apply tale_disconnect, A.
Qed.
