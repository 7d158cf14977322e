(* All steps preserve the invariant *)
From Coq Require Import Sorting.Sorted.
From Verif Require Import Base InotifyModel InotifySpec InotifyParse InotifyProofs InotifyProofs2.

Lemma nth_app_none {A} (l : list (option A)) x j : nth_error (l ++ [Some x]) j = Some None <-> nth_error l j = Some None.
Proof.
  destruct (Nat.lt_ge_cases j (length l)) as [H|H].
  - rewrite nth_error_app1 by auto. reflexivity.
  - rewrite nth_error_app2 by auto. rewrite (proj2 (nth_error_None l j)) by auto.
    destruct (j - length l)%nat as [|m]; cbn; [split; discriminate|]. destruct m; cbn; split; discriminate.
Qed.

Lemma new_inst_ok s : inv s -> callable (s_stack s) = true ->
  exists s' i q, new_inst s = Ok (s', i) /\ common s' zero /\ alive s' i q 1 /\ s_stack s' = s_stack s.
Proof.
  intros [C H] K. unfold new_inst. destruct H as [H|[(i & q & H)|(i & q & A & Q)]].
  - destruct H as (V & NI & NW & S0 & [K0|(sid & ok & K0)] & F); [|rewrite K0 in K; discriminate].
    rewrite V. eexists _, _, (Inst 1 (lowest (s_fds s)) [] (s_nsrc s) (repeat None 272)). split; [reflexivity|]. fields. split; [|split; [|reflexivity]].
    + pose proof C as CC; destruct CC. constructor; fields; auto.
      * intros j wd H. rewrite app_length in H. cbn [registered length] in *. apply co_reg. lia.
      * intros j. rewrite app_length. cbn [length In]. destruct (Nat.eq_dec j (length (s_insts s))) as [->|N].
        -- split; [lia|]. intros _. exists (lowest (s_fds s)). auto.
        -- assert ((j < length (s_insts s) + 1)%nat <-> (j < length (s_insts s))%nat) as -> by lia. rewrite <- co_init.
           split; [intros [y [H|[H|H]]]; [discriminate|injection H; intros; congruence|eauto]|intros [y H]; eauto].
      * intros j. rewrite nth_app_none, <- co_gone. cbn [In]. split; [intros [H|[H|H]]; [discriminate|discriminate|auto]|auto].
    + pose proof (co_nsrc _ _ C) as NS. constructor; fields; auto.
      * apply live_app_r.
      * intros j x H. apply live_app in H. destruct H as [[-> _]|H]; auto. destruct (nlive_0 _ NI _ _ H).
      * intros w x H. destruct (nlive_0 _ NW _ _ H).
      * intros wd. cbn. symmetry. apply (co_reg _ _ C). auto.
      * discriminate.
      * exists (KFile 0 []). split; [apply open_new|]. split; cbn; [lia|constructor].
      * rewrite K0. cbn [loops]. lia.
      * rewrite K0, S0. constructor. lia.
      * rewrite K0. cbn [tale]. apply fo_other; [|reflexivity]. apply fo_other; auto.
  - destruct H as (_ & _ & _ & _ & _ & [K0|(sid & ok & K0)] & _); rewrite K0 in K; discriminate.
  - rewrite (al_var _ _ _ _ A). unfold ref_inst. rewrite (get_live _ _ _ (al_live _ _ _ _ A)). cbn [bind].
    rewrite (put_inst_live _ _ _ _ (al_live _ _ _ _ A)). cbn [bind]. eexists _, _, _. split; [reflexivity|].
    split; [apply (common_insts _ _ _ _ _ (al_live _ _ _ _ A) C)|]. split; [exact (alive_refs _ _ _ _ 1 A)|reflexivity].
Qed.

Lemma new_ok s n : inv s -> callable (s_stack s) = true -> exists s', watch_new s n = Ok s' /\ inv s'.
Proof.
  intros I K. destruct (new_inst_ok _ I K) as (s1 & i & q & E & C & A & K1). unfold watch_new. rewrite E. cbn [bind].
  rewrite (get_live _ _ _ (al_live _ _ _ _ A)). cbn [bind]. rewrite <- K1 in K. clear s I E K1. rename s1 into s.
  destruct n as [n|].
  - destruct (kadd_ok _ _ n (al_fd _ _ _ _ A)) as (l & wd & -> & Hwd & KO).
    erewrite put_inst_live by apply (al_live _ _ _ _ A). cbn [bind]. eexists. split; [reflexivity|]. split.
    + pose proof C as CC; destruct CC. constructor; fields; auto.
      * intros w. cbn [owned]. specialize (co_owned w). destruct (Nat.eqb w (length (s_watches s))); lia.
      * intros w. rewrite wrefs_app. cbn [owned w_refs]. specialize (co_refs w). unfold zero in *. destruct (Nat.eqb_spec w (length (s_watches s))) as [E|N]; [|lia].
        subst w. rewrite wrefs_dead in co_refs; [lia|]. intros x H. apply live_lt in H. lia.
      * intros w x H. apply live_app in H. destruct H as [[-> ->]|H]; [cbn; lia|eauto].
      * intros w x H. apply live_app in H. cbn [connected]. destruct H as [[-> ->]|H]; [|eauto]. cbn. symmetry. apply co_new. auto.
      * intros w H. rewrite app_length in H. cbn [connected length] in *. apply co_new. lia.
      * intros j wd' H. rewrite upd_length in H. cbn [registered]. pose proof (live_lt _ _ _ (al_live _ _ _ _ A)).
        destruct (Nat.eqb_spec j i); [lia|]. cbn. auto.
      * intros j. rewrite upd_length. eapply co_init_emit; [reflexivity|exact C].
      * intros j. rewrite gone_upd by apply (al_live _ _ _ _ A). eapply co_gone_emit; [reflexivity|exact C].
    + right. right. exists i, (set_table q (t_insert (i_watches q) wd (length (s_watches s)))). split.
      * constructor; fields; try apply A.
        -- eapply live_upd_eq, (al_live _ _ _ _ A).
        -- eapply one_upd; [apply (al_live _ _ _ _ A)|apply (al_one _ _ _ _ A)].
        -- intros w x H. apply live_app in H. destruct H as [[-> ->]|H]; [reflexivity|]. eapply al_w; eauto.
        -- intros v. cbn [registered]. rewrite lookup_insert, Nat.eqb_refl. cbn [andb]. destruct (v =? wd); auto. apply A.
        -- intros v w H. rewrite lookup_insert in H. destruct (Z.eqb_spec v wd) as [->|N].
           ++ injection H as <-. eexists. split; [apply live_app_r|]. cbn. lia.
           ++ destruct (al_tab _ _ _ _ A _ _ H) as (x & Hx & H1 & H2). exists x. split; auto. apply live_app_l, Hx.
        -- exact KO.
        -- rewrite nlive_app. pose proof (al_refs _ _ _ _ A). lia.
        -- eapply tale_other; [| | |apply (al_tale _ _ _ _ A)]; auto.
      * fields. pose proof (al_refs _ _ _ _ A). pose proof (nlive_nonneg (s_watches s)). pose proof (loops_nonneg (s_stack s)). lia.
  - destruct (unref_ok s i q C A) as (s' & -> & I').
    { intros _. eapply callable_phase; eauto. }
    cbn [bind]. eexists. split; [reflexivity|]. apply inv_emit; auto.
Qed.

(* ---------------- the loop ---------------- *)

(* the stack of a state which reads *)
Lemma phase_loop_inv i j o n k srcs src : phase i (FLoop j o n :: k) srcs src -> j = i /\ exists sid, sid <> O /\ k = [FEnd sid true] /\ srcs = [(sid, i, true)] /\ src = sid.
Proof. intros P. inversion P; subst. split; auto. eauto. Qed.

Lemma loop_ok s i o n k : inv s -> s_stack s = FLoop i o n :: k -> exists s', loop s i o n k = Ok s' /\ inv s'.
Proof.
  intros [C H] K. destruct H as [H|[(j & q & H)|(j & q & A & Q)]].
  { destruct H as (_ & _ & _ & _ & [K0|(sid & ok & K0)] & _); rewrite K0 in K; discriminate. }
  { destruct H as (_ & _ & _ & _ & _ & [K0|(sid & ok & K0)] & _); rewrite K0 in K; discriminate. }
  pose proof (al_phase _ _ _ _ A) as P. rewrite K in P. destruct (phase_loop_inv _ _ _ _ _ _ _ P) as (-> & sid & Hs & -> & S0 & SR). clear P.
  pose proof (al_tale _ _ _ _ A) as T. rewrite K in T. cbn [tale] in T. destruct T as (p & F & B).
  unfold loop. rewrite (get_live _ _ _ (al_live _ _ _ _ A)). cbn [bind].
  (* the events after *)
  destruct p as [|e p].
  - pose proof (parse_end _ _ _ B). subst n. cbn [Z.gtb Z.compare]. unfold loop_end.
    assert (CX : common (emit (set_stack s [FEnd sid true]) (EReadEnd j)) zero).
    { pose proof C as CC; destruct CC. constructor; fields; auto.
      - intros w. rewrite co_refs, K. reflexivity.
      - eapply co_init_emit; [reflexivity|exact C].
      - eapply co_gone_emit; [reflexivity|exact C]. }
    eapply (unref_ok _ _ q CX).
    + constructor; fields; try apply A.
      * pose proof (al_refs _ _ _ _ A) as R. rewrite K in R. cbn [loops] in *. lia.
      * rewrite S0, SR. constructor. auto.
      * cbn [tale]. apply fo_end, F.
    + intros _ z Hz. cbn in Hz. discriminate.
  - rewrite (parse_pos _ _ _ _ _ B). destruct (parse_step _ _ _ _ _ B) as (l & L0 & L1 & -> & (wd & -> & EW) & RM & RC & NM & B2). cbn [bind].
    destruct (Z.gtb_spec (16 + l) n) as [G|_]; [lia|]. rewrite EW. rewrite (al_reg _ _ _ _ A).
    destruct (registered (s_trace s) j (e_wd e)) as [w|] eqn:RG.
    + pose proof RG as RG2. rewrite <- (al_reg _ _ _ _ A) in RG2. destruct (al_tab _ _ _ _ A _ _ RG2) as (x & Lx & _).
      rewrite (get_live _ _ _ Lx). cbn [bind]. rewrite (put_watch_live _ _ _ _ Lx). cbn [bind]. rewrite RM. cbn [bind]. rewrite RC. cbn [bind].
      eexists. split; [reflexivity|]. pose proof (co_pos _ _ C _ _ Lx) as PX.
      destruct (wrefs_put _ _ _ _ _ _ _ (w_refs x + 1) C A Lx ltac:(lia)) as [C1 A1]. cbn zeta in C1, A1.
      set (s1 := set_watches s (upd (s_watches s) w (Some (set_wrefs x (w_refs x + 1))))) in *.
      assert (K1 : s_stack s1 = s_stack s) by reflexivity. assert (T1 : s_trace s1 = s_trace s) by reflexivity. assert (N1 : s_nid s1 = s_nid s) by reflexivity.
      split.
      * pose proof C1 as CC; destruct CC. constructor; cbn [emit set_stack s_trace s_watches s_insts s_stack s_nid s_nsrc owned connected registered emits is_emit] in *; auto.
        -- intros v. rewrite co_refs, K1, K. unfold zero. cbn [emits is_emit]. destruct (Nat.eqb_spec v w) as [E|N]; lia.
        -- eapply co_init_emit; [reflexivity|exact C1].
        -- eapply co_gone_emit; [reflexivity|exact C1].
      * right. right. exists j, q. split; [|exact Q]. constructor; cbn [emit set_stack s_trace s_watches s_insts s_stack s_nid s_nsrc s_srcs s_fds s_var] in *; try apply A1.
        -- pose proof (al_refs _ _ _ _ A1) as R. rewrite K1, K in R. cbn [loops] in *. lia.
        -- change (s_srcs s1) with (s_srcs s). rewrite S0, SR. constructor. auto.
        -- cbn [tale]. exists p, e. rewrite T1.
           refine (conj _ (conj eq_refl (conj eq_refl (conj eq_refl (conj NM (conj B2 (le_n _))))))).
           change (follows (ELook j (e_wd e) (Some w) :: s_trace s) (Telling j w e (filter (within 0 (s_nid s)) (connected (s_trace s) w)) p)).
           assert (filter (within 0 (s_nid s)) (connected (s_trace s) w) = connected (s_trace s) w) as ->.
           { destruct (co_incr _ _ C w) as [_ Fo]. clear - Fo. induction Fo as [|a l Ha Fo IH]; cbn [filter]; auto.
             unfold within at 1. destruct (Nat.ltb_spec 0 a); [|lia]. destruct (Nat.ltb_spec a (s_nid s)); [|lia]. cbn. f_equal. exact IH. }
           apply fo_some; auto.
    + eexists. split; [reflexivity|]. split.
      * pose proof C as CC; destruct CC. constructor; cbn [emit set_stack s_trace s_watches s_insts s_stack s_nid s_nsrc owned connected registered emits is_emit] in *; auto.
        -- intros v. rewrite co_refs, K. reflexivity.
        -- eapply co_init_emit; [reflexivity|exact C].
        -- eapply co_gone_emit; [reflexivity|exact C].
      * right. right. exists j, q. split; [|exact Q]. constructor; cbn [emit set_stack s_trace s_watches s_insts s_stack s_nid s_nsrc s_srcs s_fds s_var] in *; try apply A.
        -- pose proof (al_refs _ _ _ _ A) as R. rewrite K in R. cbn [loops] in *. lia.
        -- rewrite S0, SR. constructor. auto.
        -- cbn [tale]. exists p. split; [apply fo_none; auto|exact B2].
Qed.

Lemma phase_emit_inv i j w wd m c p la mx k srcs src : phase i (FEmit j w wd m c p la mx :: k) srcs src ->
  j = i /\ exists sid o n, sid <> O /\ k = [FLoop i o n; FEnd sid true] /\ srcs = [(sid, i, true)] /\ src = sid.
Proof. intros P. inversion P; subst. split; auto. eauto 10. Qed.

(* the next handler *)
Lemma find_within last max l : StronglySorted lt l ->
  match find (within last max) l with
  | Some id => filter (within last max) l = id :: filter (within id max) l
  | None => filter (within last max) l = []
  end.
Proof.
  intros H. induction H as [|a l S0 IH F]; cbn [find filter]; auto. destruct (within last max a) eqn:W.
  - f_equal. unfold within at 2. rewrite Nat.ltb_irrefl. cbn [andb]. clear IH. unfold within in W. apply andb_prop in W. destruct W as [W1 W2].
    apply Nat.ltb_lt in W1, W2. apply filter_ext_in. intros b Hb. rewrite Forall_forall in F. specialize (F _ Hb). unfold within.
    destruct (Nat.ltb_spec last b); [|lia]. destruct (Nat.ltb_spec a b); [|lia]. reflexivity.
  - destruct (find (within last max) l) as [id|] eqn:E; auto. rewrite IH. f_equal.
    assert (In id l) as Hid by (apply find_some in E; tauto). unfold within at 2.
    rewrite Forall_forall in F. specialize (F _ Hid). destruct (Nat.ltb_spec id a); [lia|]. reflexivity.
Qed.

Lemma emission_ok s i w wd m c p la mx k : inv s -> s_stack s = FEmit i w wd m c p la mx :: k -> exists s', emission s i w wd m c p la mx k = Ok s' /\ inv s'.
Proof.
  intros [C H] K. destruct H as [H|[(j & q & H)|(j & q & A & Q)]].
  { destruct H as (_ & _ & _ & _ & [K0|(sid & ok & K0)] & _); rewrite K0 in K; discriminate. }
  { destruct H as (_ & _ & _ & _ & _ & [K0|(sid & ok & K0)] & _); rewrite K0 in K; discriminate. }
  pose proof (al_phase _ _ _ _ A) as P. rewrite K in P. destruct (phase_emit_inv _ _ _ _ _ _ _ _ _ _ _ _ P) as (-> & sid & o & n & Hs & -> & S0 & SR). clear P.
  pose proof (al_tale _ _ _ _ A) as T. rewrite K in T. cbn [tale] in T. destruct T as (pe & e & F & E1 & E2 & E3 & NM & B & MX).
  pose proof (emits_nonneg w (s_stack s)) as EM.
  destruct (inv_alive s w) as (_ & j' & q' & x & A' & _ & L).
  { split; auto. right. right. exists j, q. auto. }
  { rewrite K. cbn [emits is_emit]. rewrite Nat.eqb_refl. pose proof (co_owned _ _ C w). lia. }
  clear j' q' A'. unfold emission. rewrite (get_live _ _ _ L). cbn [bind]. rewrite (co_hand _ _ C _ _ L).
  change (fun j0 : nat => Nat.ltb la j0 && Nat.ltb j0 mx) with (within la mx).
  pose proof (find_within la mx _ (proj1 (co_incr _ _ C w))) as FW. destruct (find (within la mx) (connected (s_trace s) w)) as [id|] eqn:FE.
  - rewrite FW in F.
    assert (NX : match p with None => Ok None | Some p => do q <- get (s_insts s) j; do t <- cstr (skipn (Z.to_nat p) (i_buf q)); Ok (Some t) end = Ok (e_name e)).
    { unfold name_at in NM. destruct p as [p|]; destruct (e_name e) as [t|]; try tauto; auto.
      rewrite (get_live _ _ _ (al_live _ _ _ _ A)). cbn [bind]. rewrite NM. reflexivity. }
    rewrite NX. cbn [bind]. eexists. split; [reflexivity|]. subst wd m c. replace (IEv (e_wd e) (e_mask e) (e_cookie e) (e_name e)) with e by (destruct e; reflexivity).
    split.
    + pose proof C as CC; destruct CC. constructor; cbn [emit set_stack s_trace s_watches s_insts s_stack s_nid s_nsrc owned connected registered emits is_emit] in *; auto.
      * intros v. rewrite co_refs, K. cbn [emits is_emit]. lia.
      * eapply co_init_emit; [reflexivity|exact C].
      * eapply co_gone_emit; [reflexivity|exact C].
    + right. right. exists j, q. split; [|exact Q]. constructor; cbn [emit set_stack s_trace s_watches s_insts s_stack s_nid s_nsrc s_srcs s_fds s_var] in *; try apply A.
      * pose proof (al_refs _ _ _ _ A) as R. rewrite K in R. cbn [loops] in *. lia.
      * rewrite S0, SR. constructor. auto.
      * cbn [tale]. exists pe, e. refine (conj _ (conj eq_refl (conj eq_refl (conj eq_refl (conj NM (conj B MX)))))). cbn [connected]. apply fo_call, F.
  - rewrite FW in F. eapply (wunref_ok _ j q w x).
    + pose proof C as CC; destruct CC. constructor; cbn [set_stack s_trace s_watches s_insts s_stack s_nid s_nsrc] in *; auto.
      intros v. rewrite co_refs, K. unfold zero, one. cbn [emits is_emit]. lia.
    + constructor; cbn [set_stack s_trace s_watches s_insts s_stack s_nid s_nsrc s_srcs s_fds s_var] in *; try apply A.
      * pose proof (al_refs _ _ _ _ A) as R. rewrite K in R. cbn [loops] in *. lia.
      * rewrite S0, SR. constructor. auto.
      * cbn [tale]. exists pe. split; auto. eapply fo_told, F.
    + exact L.
    + exact Q.
    + cbn. discriminate.
Qed.

(* ---------------- the main loop ---------------- *)

Lemma dispatch_end_ok s sid ok k : inv s -> s_stack s = FEnd sid ok :: k -> inv (dispatch_end (set_stack s k) sid ok).
Proof.
  intros [C H] K. unfold dispatch_end, source. cbn [set_stack s_srcs]. destruct H as [H|[(j & q & H)|(j & q & A & Q)]].
  - destruct H as (V & NI & NW & S0 & [K0|(z & b & K0)] & F); rewrite K0 in K; [discriminate|]. injection K as -> -> <-. rewrite S0. cbn [find].
    split; [eapply common_same; [..|exact C]; try reflexivity; rewrite K0; reflexivity|]. left. repeat split; auto.
  - destruct H as (_ & _ & _ & _ & _ & [K0|(z & b & K0)] & _); rewrite K0 in K; discriminate.
  - pose proof (al_phase _ _ _ _ A) as P. rewrite K in P. pose proof (al_tale _ _ _ _ A) as T. rewrite K in T. cbn [tale] in T.
    pose proof (al_refs _ _ _ _ A) as R. rewrite K in R. cbn [loops] in R.
    inversion P as [| |z Hs E1 E2 E3|z Hs E1 E2 E3| | |]; subst; cbn [find fst]; rewrite Nat.eqb_refl.
    + split; [eapply common_same; [..|exact C]; try reflexivity; rewrite K; reflexivity|]. right. right. exists j, q. split; [|exact Q].
      constructor; cbn [set_srcs set_stack s_trace s_watches s_insts s_stack s_nid s_nsrc s_srcs s_fds s_var] in *; try apply A; auto.
      try rewrite <- E2. cbn [map fst]. rewrite Nat.eqb_refl. constructor. auto.
    + unfold remove_source, source. cbn [set_stack s_srcs]. try rewrite <- E2. cbn [find fst]. rewrite Nat.eqb_refl. apply inv_emit; [reflexivity|].
      split; [eapply common_same; [..|exact C]; try reflexivity; rewrite K; reflexivity|]. right. right. exists j, q. split; [|exact Q].
      constructor; cbn [set_srcs set_stack s_trace s_watches s_insts s_stack s_nid s_nsrc s_srcs s_fds s_var] in *; try apply A; auto.
      unfold without. cbn [filter fst]. rewrite Nat.eqb_refl. cbn [negb]. try rewrite <- E3. constructor.
Qed.

Lemma dispatch_ok s sid r : inv s -> callable (s_stack s) = true -> fair s (ADispatch sid r) -> exists s', dispatch s sid r = Ok s' /\ inv s'.
Proof.
  intros I K F. pose proof I as [C H]. unfold dispatch, source. destruct H as [H|[(j & q & H)|(j & q & A & Q)]].
  - destruct H as (V & NI & NW & S0 & _). rewrite S0. cbn [find]. exists s. auto.
  - destruct H as (_ & _ & _ & _ & S0 & _). rewrite S0. cbn [find]. exists s. auto.
  - pose proof (al_phase _ _ _ _ A) as P. pose proof (al_tale _ _ _ _ A) as T. pose proof (al_refs _ _ _ _ A) as R.
    remember (s_stack s) as k eqn:EK. remember (s_srcs s) as srcs eqn:ES. remember (i_src q) as src eqn:EI.
    assert (DONE : exists s', Ok s = Ok s' /\ inv s') by eauto.
    destruct P as [z Hs| |z Hs|z Hs|z o n Hs|z w wd m c p la mx o n Hs|z w id wd m c p la mx o n Hs]; cbn [find fst];
      try exact DONE; destruct (Nat.eqb_spec z sid) as [->|]; try exact DONE. cbn [tale loops] in *.
    rewrite (get_live _ _ _ (al_live _ _ _ _ A)). cbn [bind]. destruct r as [| |d].
    + rewrite (put_inst_live _ _ _ _ (al_live _ _ _ _ A)). cbn [bind]. eexists. split; [reflexivity|].
      unfold remove_source, source. cbn [set_insts s_srcs]. rewrite <- ES. cbn [find fst]. rewrite Nat.eqb_refl. apply inv_emit; [reflexivity|].
      split.
      * eapply common_same; [..|apply (common_insts _ _ _ _ (set_src q 0) (al_live _ _ _ _ A) C)]; reflexivity.
      * right. right. exists j, (set_src q 0). split; [|exact Q]. constructor; fields; try apply A.
        -- eapply live_upd_eq, (al_live _ _ _ _ A).
        -- eapply one_upd; [apply (al_live _ _ _ _ A)|apply (al_one _ _ _ _ A)].
        -- unfold without. cbn [filter fst]. rewrite Nat.eqb_refl, <- EK. constructor.
    + erewrite put_inst_live by apply (al_live _ _ _ _ A). cbn [bind]. cbn [map fst]. rewrite Nat.eqb_refl.
      assert (U : forall (h : list (option instance)) n a b, upd (upd h n a) n b = upd h n b).
      { clear. intros h; induction h as [|y h IH]; intros [|n] a b; cbn; auto. f_equal. apply IH. }
      eapply (unref_ok _ _ (set_refs (set_src q 0) (i_refs q + 1))).
      * eapply common_same; [..|apply (common_insts _ _ _ _ (set_refs (set_src q 0) (i_refs q + 1)) (al_live _ _ _ _ A) C)]; try reflexivity; cbn; rewrite <- EK; reflexivity.
      * constructor; fields; try apply A.
        -- eapply live_upd_eq, (al_live _ _ _ _ A).
        -- eapply one_upd; [apply (al_live _ _ _ _ A)|apply (al_one _ _ _ _ A)].
        -- rewrite <- EK. cbn [loops]. lia.
        -- rewrite <- EK. cbn. constructor. auto.
        -- rewrite <- EK. exact T.
      * fields. intros E. lia.
    + destruct (Z.leb_spec (len d) 272) as [LD|LD]; [|exact DONE].
      erewrite put_inst_live by apply (al_live _ _ _ _ A). cbn [bind]. eexists. split; [reflexivity|]. cbn [map fst]. rewrite Nat.eqb_refl.
      destruct F as [pe HE].
      assert (LB : len (map Some d ++ skipn (length d) (i_buf q)) = 272).
      { rewrite len_app. pose proof (al_buf _ _ _ _ A) as LB. unfold len in *. rewrite map_length, skipn_length. lia. }
      pose proof (common_insts _ _ _ _ (set_refs (set_buf q (map Some d ++ skipn (length d) (i_buf q))) (i_refs q + 1)) (al_live _ _ _ _ A) C) as C1.
      split.
      * pose proof C1 as CC; destruct CC. constructor; cbn [emit set_insts set_srcs set_stack s_trace s_watches s_insts s_stack s_nid s_nsrc owned connected registered emits is_emit] in *; auto.
        -- exact (co_init_emit _ (ERead j d) _ eq_refl C1).
        -- exact (co_gone_emit _ (ERead j d) _ eq_refl C1).
      * right. right. exists j, (set_refs (set_buf q (map Some d ++ skipn (length d) (i_buf q))) (i_refs q + 1)). split.
        -- constructor; fields; try apply A.
           ++ eapply live_upd_eq, (al_live _ _ _ _ A).
           ++ eapply one_upd; [apply (al_live _ _ _ _ A)|apply (al_one _ _ _ _ A)].
           ++ exact LB.
           ++ rewrite <- EK. cbn [loops]. lia.
           ++ rewrite <- EK, <- EI. constructor. auto.
           ++ cbn [tale]. exists pe. split; [apply fo_read; auto|]. apply parse_start; auto. rewrite (al_buf _ _ _ _ A). auto.
        -- cbn. lia.
Qed.

Lemma close_end_ok s i k : inv s -> s_stack s = FClose i :: k -> exists s', close_end (set_stack s k) i = Ok s' /\ inv s'.
Proof.
  intros [C H] K. destruct H as [H|[(j & q & H)|(j & q & A & Q)]].
  - destruct H as (_ & _ & _ & _ & [K0|(z & b & K0)] & F); rewrite K0 in K; discriminate.
  - destruct H as (V & L & O & NW & S0 & K0 & F).
    assert (j = i) as -> by (destruct K0 as [K0|(z & b & K0)]; rewrite K0 in K; congruence).
    assert (K1 : k = [] \/ exists sid ok, k = [FEnd sid ok]) by (destruct K0 as [K0|(z & b & K0)]; rewrite K0 in K; injection K as <-; eauto).
    assert (EM : forall w, emits w k = emits w (s_stack s)) by (intros w; rewrite K; reflexivity).
    unfold close_end. cbn [set_stack s_insts]. rewrite (get_live _ _ _ L). cbn [bind].
    destruct (close_inv (set_stack s k) (i_fd q)) as (e & Ne & ->).
    erewrite release_live by exact L. cbn [bind emit set_fds set_insts set_stack s_var]. rewrite V, Nat.eqb_refl. eexists. split; [reflexivity|].
    assert (Z0 : nlive (upd (s_insts s) i None) = 0).
    { apply nlive_none. intros a x Hx. apply live_upd in Hx. destruct Hx as [[_ Hx]|[N Hx]]; [discriminate|]. apply O in Hx. congruence. }
    split.
    + apply (common_emit _ _ e Ne) in C. pose proof C as CC; destruct CC. constructor; fields; auto.
      * intros v. cbn [owned]. rewrite co_refs, EM. reflexivity.
      * intros j wd H. rewrite upd_length in H. exact (co_reg j wd H).
      * intros j. rewrite upd_length, <- co_init. split; [intros [y [H|H]]; [discriminate|eauto]|intros [y H]; exists y; right; auto].
      * intros j. cbn [In]. destruct (Nat.eq_dec i j) as [<-|N].
        -- rewrite nth_error_upd_eq by apply (live_lt _ _ _ L). split; auto.
        -- rewrite nth_error_upd_ne by auto. rewrite <- co_gone. cbn [In]. split; [intros [H|H]; [congruence|auto]|auto].
    + left. unfold none. fields. repeat split; auto. apply fo_other; [|reflexivity]. apply follows_neutral; auto.
  - pose proof (al_phase _ _ _ _ A) as P. rewrite K in P. inversion P.
Qed.

Lemma return_ok s w id k : inv s -> s_stack s = FHandler w id :: k -> inv (emit (set_stack s k) EReturn).
Proof.
  intros [C H] K. apply inv_emit; [reflexivity|]. destruct H as [H|[(j & q & H)|(j & q & A & Q)]].
  - destruct H as (_ & _ & _ & _ & [K0|(z & b & K0)] & F); rewrite K0 in K; discriminate.
  - destruct H as (_ & _ & _ & _ & _ & [K0|(z & b & K0)] & F); rewrite K0 in K; discriminate.
  - split; [eapply common_same; [..|exact C]; try reflexivity; rewrite K; reflexivity|]. right. right. exists j, q. split; [|exact Q].
    pose proof (al_phase _ _ _ _ A) as P. rewrite K in P. pose proof (al_tale _ _ _ _ A) as T. rewrite K in T.
    pose proof (al_refs _ _ _ _ A) as R. rewrite K in R. cbn [loops] in R.
    inversion P as [| | | | | |? ? ? ? ? ? ? ? ? ? ? H4 H2 H3]; subst. constructor; cbn [set_stack s_trace s_watches s_insts s_stack s_nid s_nsrc s_srcs s_fds s_var] in *; try apply A; auto.
    rewrite <- H3. constructor. auto.
Qed.

(* other threads and the kernel *)
Lemma fds_ok s l : inv s -> (forall fd, kernel_ok (s_fds s) fd -> kernel_ok l fd) -> inv (set_fds s l).
Proof.
  intros [C H] E. split; [eapply common_same; [..|exact C]; reflexivity|]. destruct H as [H|[(j & q & H)|(j & q & A & Q)]].
  - left. exact H.
  - right. left. exists j, q. exact H.
  - right. right. exists j, q. split; [|exact Q]. destruct A. constructor; auto.
Qed.

Theorem step_ok s a : inv s -> fair s a -> exists s', step s a = Ok s' /\ inv s'.
Proof.
  intros I F. assert (DONE : exists s', Ok s = Ok s' /\ inv s') by eauto. destruct a as [c| | |sid r|fd n| |fd]; cbn [step].
  - destruct (callable (s_stack s)) eqn:K; [|exact DONE]. destruct c as [n| |w|w|w|w|w id]; cbn [fair] in F.
    + apply new_ok; auto.
    + cbn [do_call]. destruct (s_var s); [exact DONE|]. eexists. split; [reflexivity|]. apply inv_emit; auto.
    + apply ref_ok; auto.
    + apply unref_call_ok; auto.
    + apply destroy_call_ok; auto.
    + apply connect_ok; auto.
    + apply disconnect_ok; auto.
  - destruct (s_stack s) as [|f k] eqn:K; [exact DONE|]. destruct f; try exact DONE. eexists. split; [reflexivity|]. eapply return_ok; eauto.
  - destruct (s_stack s) as [|f k] eqn:K; [exact DONE|]. destruct f; try exact DONE.
    + apply close_end_ok; auto.
    + apply loop_ok; auto.
    + apply emission_ok; auto.
    + eexists. split; [reflexivity|]. apply dispatch_end_ok; auto.
  - destruct (callable (s_stack s)) eqn:K; [|exact DONE]. apply dispatch_ok; auto.
  - eexists. split; [reflexivity|]. apply fds_ok; auto. intros fd'. apply kdrop_ok.
  - eexists. split; [reflexivity|]. apply fds_ok; auto. intros fd (k & L & Hk). exists k. split; auto. apply open_old, L.
  - destruct (nth_error (s_fds s) fd) as [[[k|]|]|] eqn:E; try exact DONE. eexists. split; [reflexivity|]. apply fds_ok; auto.
    intros fd' (k & L & Hk). exists k. split; auto. apply live_upd_ne; auto. intros <-. unfold live in L. congruence.
Qed.

Lemma inv_start : inv start.
Proof.
  assert (NE : forall {A} n, nth_error (@nil A) n = None) by (intros A [|n]; reflexivity).
  split.
  - constructor; cbn; auto; try lia.
    + intros w. unfold wrefs. rewrite NE. reflexivity.
    + intros w x H. unfold live in H. rewrite NE in H. discriminate.
    + intros w x H. unfold live in H. rewrite NE in H. discriminate.
    + intros w. split; constructor.
    + intros j. split; [intros [_ []]|lia].
    + intros j. rewrite NE. split; [tauto|discriminate].
  - left. repeat split; auto. apply fo_start.
Qed.

Lemma run_ok l : forall s, inv s -> all_along fair s l -> exists s', run s l = Ok s' /\ inv s'.
Proof.
  induction l as [|a l IH]; intros s I F; cbn [run all_along] in *; [eauto|]. destruct F as [F G].
  destruct (step_ok _ _ I F) as (s1 & E & I1). rewrite E in *. cbn [bind]. auto.
Qed.
