(* Files and their objects; handlers and emissions *)
From Verif Require Import Base TimeModel TimeSpec TimeProofs TimeProofs2.

Definition calm (e : event) : Prop := match e with EOpen _ | ENew _ | EAdd _ _ | ERemove _ _ | EFire _ | ECall _ _ | EEnd _ => False | _ => True end.
Record keeps (s s' : state) : Prop := MkKeeps {
  K_trace : exists l, s_trace s' = l ++ s_trace s /\ Forall calm l;
  K_frames : s_frames s' = s_frames s;
  K_next : s_next s' = s_next s;
  K_nobj : length (s_objs s') = length (s_objs s);
  K_objs : forall o x', nth_error (s_objs s') o = Some x' -> exists x, nth_error (s_objs s) o = Some x /\ t_chan x' = t_chan x /\
    (t_live x' = true -> t_live x = true /\ t_handlers x' = t_handlers x);
  K_io : forall c y', nth_error (s_io s') c = Some y' -> exists y, nth_error (s_io s) c = Some y /\ i_obj y' = i_obj y }.

Lemma keeps_refl s : keeps s s.
Proof. constructor; auto. - exists []. auto. - intros o x E. exists x. auto. - intros c y E. exists y. auto. Qed.
Lemma keeps_trans s1 s2 s3 : keeps s1 s2 -> keeps s2 s3 -> keeps s1 s3.
Proof.
  intros [(l & A1 & A2) A3 A4 A5 A6 A7] [(m & B1 & B2) B3 B4 B5 B6 B7]. constructor; try congruence.
  - exists (m ++ l). split; [rewrite B1, A1, app_assoc; reflexivity|apply Forall_app; auto].
  - intros o x3 E. destruct (B6 o x3 E) as (x2 & E2 & C2 & H2). destruct (A6 o x2 E2) as (x1 & E1 & C1 & H1). exists x1. split; [exact E1|]. split; [congruence|].
    intros L. destruct (H2 L) as [L2 Q2]. destruct (H1 L2) as [L1 Q1]. split; congruence.
  - intros c y3 E. destruct (B7 c y3 E) as (y2 & E2 & C2). destruct (A7 c y2 E2) as (y1 & E1 & C1). exists y1. split; [exact E1|congruence].
Qed.
Lemma keeps_emit s e : calm e -> keeps s (emit s e).
Proof. intros C. constructor; auto; cbn [emit s_trace s_objs s_io]. - exists [e]. auto. - intros o x E. exists x. auto. - intros c y E. exists y. auto. Qed.
Lemma keeps_io s c y y' : nth_error (s_io s) c = Some y -> i_obj y' = i_obj y -> keeps s (set_io s c y').
Proof.
  intros E O. constructor; auto; cbn [set_io s_trace s_objs s_io].
  - exists []. auto.
  - intros o x Ex. exists x. auto.
  - intros d z Z. destruct (nth_upd _ _ _ _ _ _ E Z) as [[-> ->]|[_ Z']]; [exists y; auto|exists z; auto].
Qed.
Lemma keeps_obj s o x x' : nth_error (s_objs s) o = Some x -> t_chan x' = t_chan x -> (t_live x' = true -> t_live x = true /\ t_handlers x' = t_handlers x) -> keeps s (set_obj s o x').
Proof.
  intros E C H. constructor; auto; cbn [set_obj s_trace s_objs s_io].
  - exists []. auto.
  - apply upd_length.
  - intros p z Z. destruct (nth_upd _ _ _ _ _ _ E Z) as [[-> ->]|[_ Z']]; [exists x; auto|exists z; auto].
  - intros c y Y. exists y. auto.
Qed.
Lemma keeps_inst s p : keeps s (set_inst s p).
Proof. constructor; auto; cbn [set_inst s_trace s_objs s_io]. - exists []. auto. - intros o x E. exists x. auto. - intros c y E. exists y. auto. Qed.

Lemma source_nth s c y : source s c = Ok y -> nth_error (s_io s) c = Some y.
Proof. unfold source. destruct (nth_error (s_io s) c); [congruence|discriminate]. Qed.
Lemma chan_nth s c y : chan s c = Ok y -> nth_error (s_io s) c = Some y /\ i_live y = true.
Proof. unfold chan. destruct (nth_error (s_io s) c) as [z|]; [|discriminate]. destruct (i_live z) eqn:L; [|discriminate]. intros E. injection E as <-. auto. Qed.
Lemma obj_nth s o x : obj s o = Ok x -> nth_error (s_objs s) o = Some x /\ t_live x = true.
Proof. unfold obj. destruct (nth_error (s_objs s) o) as [z|]; [|discriminate]. destruct (t_live z) eqn:L; [|discriminate]. intros E. injection E as <-. auto. Qed.

Ltac dres H := match type of H with bind ?m _ = Ok _ => let r := fresh "r" in let Q := fresh "Q" in destruct m as [r|] eqn:Q; [cbn [bind] in H|discriminate H] end.

Lemma keeps_close s c s' : close s c = Ok s' -> keeps s s'.
Proof.
  unfold close. intros H. dres H. apply source_nth in Q. destruct (i_open r).
  - injection H as <-. eapply keeps_trans; [|apply keeps_emit; exact I]. eapply keeps_io; [exact Q|reflexivity].
  - injection H as <-. apply keeps_emit. exact I.
Qed.
Lemma keeps_unref_chan s c s' : chan_unref s c = Ok s' -> keeps s s'.
Proof.
  unfold chan_unref. intros H. dres H. apply chan_nth in Q. destruct Q as [Q _]. destruct (i_refs r =? 1).
  - dres H. dres H. apply source_nth in Q1. injection H as <-. apply keeps_trans with r0.
    + destruct (i_close r); [exact (keeps_close _ _ _ Q0)|injection Q0 as <-; apply keeps_refl].
    + eapply keeps_trans; [|apply keeps_emit; exact I]. eapply keeps_io; [exact Q1|reflexivity].
  - injection H as <-. eapply keeps_io; [exact Q|reflexivity].
Qed.
Lemma keeps_shutdown s c s' : chan_shutdown s c = Ok s' -> keeps s s'.
Proof. unfold chan_shutdown. intros H. dres H. apply chan_nth in Q. destruct Q as [Q _]. eapply keeps_trans; [|exact (keeps_close _ _ _ H)]. eapply keeps_io; [exact Q|reflexivity]. Qed.
Lemma keeps_remove s c s' : source_remove s c = Ok s' -> keeps s s'.
Proof.
  unfold source_remove. intros H. dres H. apply source_nth in Q. destruct (i_on r); cbv zeta in H.
  - assert (K : keeps s (emit (set_io s c (Io (i_obj r) (i_open r) (i_refs r) (i_close r) (i_live r) false (i_running r))) (EDestroy c))).
    { eapply keeps_trans; [|apply keeps_emit; exact I]. eapply keeps_io; [exact Q|reflexivity]. }
    destruct (i_running r); [injection H as <-; exact K|]. eapply keeps_trans; [exact K|exact (keeps_unref_chan _ _ _ H)].
  - injection H as <-. apply keeps_emit. exact I.
Qed.
Lemma keeps_finalize s o s' : finalize s o = Ok s' -> keeps s s'.
Proof.
  unfold finalize. intros H. dres H. dres H. dres H. apply obj_nth in Q1. destruct Q1 as [Q1 L]. injection H as <-. apply keeps_trans with r0.
  - destruct (t_chan r) as [c|]; [|injection Q0 as <-; apply keeps_refl]. dres Q0. dres Q0. apply keeps_trans with r2.
    + unfold gutil_source_remove in Q2. destruct (t_watch r); [injection Q2 as <-; apply keeps_refl|exact (keeps_remove _ _ _ Q2)].
    + eapply keeps_trans; [exact (keeps_shutdown _ _ _ Q3)|exact (keeps_unref_chan _ _ _ Q0)].
  - eapply keeps_trans; [|apply keeps_emit; exact I]. eapply keeps_obj; [exact Q1|reflexivity|discriminate].
Qed.
Lemma keeps_unref s o s' : unref s o = Ok s' -> keeps s s'.
Proof.
  unfold unref. intros H. dres H. apply obj_nth in Q. destruct Q as [Q L]. destruct (t_refs r =? 1).
  - eapply keeps_trans; [|exact (keeps_finalize _ _ _ H)]. apply keeps_inst.
  - injection H as <-. eapply keeps_obj; [exact Q|reflexivity|]. cbn [set_refs t_live t_handlers]. auto.
Qed.
Lemma keeps_ref s o s' : ref s o = Ok s' -> keeps s s'.
Proof. unfold ref. intros H. dres H. apply obj_nth in Q. destruct Q as [Q L]. injection H as <-. eapply keeps_obj; [exact Q|reflexivity|]. cbn [set_refs t_live t_handlers]. auto. Qed.
Lemma keeps_error s c s' : callback_error s c = Ok s' -> keeps s s'.
Proof.
  unfold callback_error. intros H. dres H. apply source_nth in Q. dres H. apply obj_nth in Q0. destruct Q0 as [Q0 L]. cbv zeta in H.
  eapply keeps_trans; [|exact (keeps_unref_chan _ _ _ H)]. eapply keeps_trans; [|apply keeps_emit; exact I]. eapply keeps_trans; [|apply keeps_emit; exact I].
  eapply keeps_trans; [eapply keeps_obj with (x' := set_watch r0 0); [exact Q0|reflexivity|cbn [set_watch t_live t_handlers]; auto]|]. eapply keeps_io; [exact Q|reflexivity].
Qed.
(* The end of the callback, after its event *)
Lemma keeps_end s c o fs s' : s_frames s = Frame c o [] :: fs -> callback_end s = Ok s' -> keeps (emit (set_frames s fs) (EEnd o)) s'.
Proof.
  unfold callback_end. intros F H. rewrite F in H. dres H. dres H. apply source_nth in Q0. cbv zeta in H. eapply keeps_trans; [exact (keeps_unref _ _ _ Q)|].
  assert (K : keeps r (set_io r c (Io (i_obj r0) (i_open r0) (i_refs r0) (i_close r0) (i_live r0) (i_on r0) false))) by (eapply keeps_io; [exact Q0|reflexivity]).
  destruct (i_on r0); [injection H as <-; exact K|]. eapply keeps_trans; [exact K|exact (keeps_unref_chan _ _ _ H)].
Qed.

(* Files *)
Definition Own (s : state) : Prop := forall c y, nth_error (s_io s) c = Some y -> maker c (s_trace s) = Some (i_obj y) /\
  exists x, nth_error (s_objs s) (i_obj y) = Some x /\ t_chan x = Some c.
Lemma nth_some {A} (l : list A) n : (n < length l)%nat -> exists x, nth_error l n = Some x.
Proof. intros L. destruct (nth_error l n) eqn:E; [eauto|]. apply nth_error_None in E. lia. Qed.
Lemma maker_calm c l tr : Forall (fun e => match e with EOpen _ => False | _ => True end) l -> maker c (l ++ tr) = maker c tr.
Proof. induction 1 as [|e l C _ IH]; [reflexivity|]. destruct e; cbn [maker app]; tauto. Qed.
Lemma own_keeps s s' : keeps s s' -> Own s -> Own s'.
Proof.
  intros [(l & T & C) _ _ N KO KI] W c y' E. destruct (KI c y' E) as (y & Y & O). destruct (W c y Y) as (M & x & X & CH). split.
  - rewrite T, maker_calm, O; [exact M|]. revert C. apply Forall_impl. intros []; cbn; auto.
  - rewrite O. destruct (nth_some (s_objs s') (i_obj y)) as (x' & X'); [rewrite N; exact (nth_len _ _ _ X)|]. exists x'. split; [exact X'|].
    destruct (KO _ _ X') as (x0 & X0 & C0 & _). congruence.
Qed.
(* the same with events of handlers *)
Lemma own_obj s o x x' n e : nth_error (s_objs s) o = Some x -> t_chan x' = t_chan x -> (forall c, maker c (e :: s_trace s) = maker c (s_trace s)) -> Own s ->
  Own (State (s_inst s) (upd (s_objs s) o x') (s_io s) (s_frames s) n (e :: s_trace s)).
Proof.
  intros E C M W c y Y. cbn [s_io s_trace s_objs] in *. destruct (W c y Y) as (M0 & z & Z & CH). rewrite M. split; [exact M0|].
  destruct (Nat.eq_dec (i_obj y) o) as [Q|NQ].
  - rewrite Q in *. exists x'. split; [exact (nth_upd_eq _ _ _ _ E)|congruence].
  - exists z. rewrite nth_error_upd_ne by congruence. auto.
Qed.

Lemma own_step s a s' : Own s -> step s a = Ok s' -> Own s'.
Proof.
  intros W H. destruct a as [ok|o|o|o|o h|c|c| |]; cbn [step] in H.
  - unfold time_notify_new in H. destruct (s_inst s) as [o|].
    + dres H. injection H as <-. eapply own_keeps; [|exact W]. eapply keeps_trans; [exact (keeps_ref _ _ _ Q)|apply keeps_emit; exact I].
    + injection H as <-. unfold create. intros c y Y. destruct ok; cbn [emit set_inst s_io s_trace s_objs maker] in *.
      * destruct (nth_snoc _ _ _ _ Y) as [[-> ->]|[NC Y']].
        -- rewrite Nat.eqb_refl. split; [reflexivity|]. cbn [i_obj]. eexists. split; [rewrite nth_error_app2, Nat.sub_diag by lia; reflexivity|reflexivity].
        -- destruct (W c y Y') as (M & x & X & CH). destruct (Nat.eqb_spec (length (s_io s)) c); [congruence|]. split; [exact M|]. exists x. split; [|exact CH]. rewrite nth_error_app1; [exact X|exact (nth_len _ _ _ X)].
      * destruct (W c y Y) as (M & x & X & CH). split; [exact M|]. exists x. split; [|exact CH]. rewrite nth_error_app1; [exact X|exact (nth_len _ _ _ X)].
  - unfold time_notify_ref in H. destruct o as [o|]; [|injection H as <-; exact W]. dres H. injection H as <-. eapply own_keeps; [|exact W]. eapply keeps_trans; [exact (keeps_ref _ _ _ Q)|apply keeps_emit; exact I].
  - unfold time_notify_unref in H. destruct o as [o|]; [|injection H as <-; exact W]. eapply own_keeps; [|exact W]. eapply keeps_trans; [|exact (keeps_unref _ _ _ H)]. apply keeps_emit. exact I.
  - unfold add_handler in H. destruct o as [o|]; [|injection H as <-; exact W]. dres H. apply obj_nth in Q. destruct Q as [Q L]. cbv zeta in H. injection H as <-.
    apply (own_obj s o r (set_handlers r (t_handlers r ++ [s_next s]))); auto.
  - unfold remove_handler in H. destruct o as [o|]; [|injection H as <-; exact W]. dres H. apply obj_nth in Q. destruct Q as [Q L]. injection H as <-.
    apply (own_obj s o r (set_handlers r (filter (fun g => negb (Nat.eqb g h)) (t_handlers r)))); auto.
  - eapply own_keeps; [exact (keeps_error _ _ _ H)|exact W].
  - unfold callback_begin in H. dres H. apply source_nth in Q. dres H. dres H. dres H. cbv zeta in H. injection H as <-.
    intros d y Y. cbn [emit set_frames s_io s_trace s_objs maker] in *.
    assert (W2 : Own (set_io r0 c (Io (i_obj r) (i_open r) (i_refs r) (i_close r) (i_live r) (i_on r) true))).
    { eapply own_keeps; [|exact (own_keeps _ _ (keeps_ref _ _ _ Q0) W)]. unfold ref in Q0. dres Q0. injection Q0 as <-. apply keeps_io with r; [exact Q|reflexivity]. }
    exact (W2 d y Y).
  - unfold emission in H. destruct (s_frames s) as [|[c o [|h l]] fs]; try (injection H as <-; exact W). dres H. cbv zeta in H.
    destruct (existsb (Nat.eqb h) (t_handlers r)); injection H as <-; exact W.
  - destruct (s_frames s) as [|[c o [|h l]] fs] eqn:F; try (unfold callback_end in H; rewrite F in H; injection H as <-; exact W).
    eapply own_keeps; [exact (keeps_end _ _ _ _ _ F H)|]. intros d y Y. exact (W d y Y).
Qed.
Lemma own_run l : forall s s', Own s -> run s l = Ok s' -> Own s'.
Proof. induction l as [|a l IH]; intros s s' W E; [injection E as <-; exact W|]. cbn [run] in E. dres E. exact (IH _ _ (own_step _ _ _ W Q) E). Qed.
Lemma own_start : Own start.
Proof. intros c y E. destruct c; discriminate. Qed.

(* Emissions *)
Record Del (s : state) : Prop := MkDel {
  D_conn : forall o x, nth_error (s_objs s) o = Some x -> t_live x = true -> t_handlers x = conn o (s_trace s);
  D_fresh : forall o, (length (s_objs s) <= o)%nat -> conn o (s_trace s) = [] /\ left o (s_trace s) = None;
  D_next : forall o h, In h (conn o (s_trace s)) -> (h < s_next s)%nat;
  D_idle : forall o, in_frames o (s_frames s) = 0 -> left o (s_trace s) = None;
  D_frame : forall c o l, s_frames s = [Frame c o l] -> exists k, left o (s_trace s) = Some (k ++ l) /\ (forall g, In g k -> ~ In g (conn o (s_trace s))) /\ (forall g, In g (k ++ l) -> (g < s_next s)%nat);
  D_good : good (s_trace s);
  D_nodup : forall o, NoDup (conn o (s_trace s)) }.

Lemma calm_conn o l tr : Forall calm l -> conn o (l ++ tr) = conn o tr.
Proof. induction 1 as [|e l C _ IH]; [reflexivity|]. destruct e; cbn [conn app calm] in *; tauto. Qed.
Lemma calm_left o l tr : Forall calm l -> left o (l ++ tr) = left o tr.
Proof. induction 1 as [|e l C _ IH]; [reflexivity|]. destruct e; cbn [left app calm] in *; tauto. Qed.
Lemma calm_good l tr : Forall calm l -> good tr -> good (l ++ tr).
Proof. induction 1 as [|e l C _ IH]; [auto|]. intros G. destruct e; cbn [good app calm] in *; tauto. Qed.

Lemma del_keeps s s' : keeps s s' -> Del s -> Del s'.
Proof.
  intros [(l & T & C) F N NO KO _] [D1 D2 D3 D4 D5 D6 D7]. constructor; rewrite T.
  - intros o x' E L. destruct (KO o x' E) as (x & X & _ & H). destruct (H L) as [L0 Q]. rewrite Q, calm_conn by exact C. exact (D1 o x X L0).
  - intros o Lo. rewrite calm_conn, calm_left by exact C. apply D2. lia.
  - intros o h. rewrite calm_conn by exact C. rewrite N. apply D3.
  - intros o. rewrite calm_left by exact C. rewrite F. apply D4.
  - intros c o m. rewrite F, N, calm_left, calm_conn by exact C. apply D5.
  - apply calm_good; assumption.
  - intros o. rewrite calm_conn by exact C. apply D7.
Qed.

Lemma after_skip k h t : ~ In h k -> after h (k ++ h :: t) = t.
Proof.
  induction k as [|g k IH]; cbn [after app]; [rewrite Nat.eqb_refl; reflexivity|]. intros NI. destruct (Nat.eqb_spec g h) as [->|NE]; [destruct NI; left; reflexivity|]. apply IH. intros M. apply NI. right. exact M.
Qed.
Lemma filter_conn h l g : In g (filter (fun g => negb (Nat.eqb g h)) l) -> In g l.
Proof. intros M. apply filter_In in M. tauto. Qed.

Lemma nodup_snoc (l : list nat) h : NoDup l -> ~ In h l -> NoDup (l ++ [h]).
Proof.
  induction 1 as [|g l NI _ IH]; intros M; cbn [app]; [repeat constructor; intros []|]. constructor.
  - intros G. apply in_app_or in G. destruct G as [G|[G|[]]]; [exact (NI G)|]. apply M. left. congruence.
  - apply IH. intros G. apply M. right. exact G.
Qed.

Lemma del_step s a s' : Inv s -> fair s a -> Del s -> step s a = Ok s' -> Del s'.
Proof.
  intros V FA D H. destruct a as [ok|o|o|o|o h|c|c| |]; cbn [step] in H.
  - unfold time_notify_new in H. destruct (s_inst s) as [o|].
    + dres H. injection H as <-. eapply del_keeps; [|exact D]. eapply keeps_trans; [exact (keeps_ref _ _ _ Q)|apply keeps_emit; exact I].
    + injection H as <-. destruct D as [D1 D2 D3 D4 D5 D6 D7]. unfold create. destruct ok; constructor; cbn [emit set_inst s_frames s_next s_trace s_objs conn left good];
        try (intros o x E L; destruct (nth_snoc _ _ _ _ E) as [[-> ->]|[_ E']]; [cbn [t_handlers]; destruct (D2 (length (s_objs s)) (Nat.le_refl _)); congruence|exact (D1 o x E' L)]);
        try (intros o Lo; rewrite app_length in Lo; apply D2; lia); try exact D3; try exact D4; try exact D5; try exact D7; tauto.
  - unfold time_notify_ref in H. destruct o as [o|]; [|injection H as <-; exact D]. dres H. injection H as <-. eapply del_keeps; [|exact D]. eapply keeps_trans; [exact (keeps_ref _ _ _ Q)|apply keeps_emit; exact I].
  - unfold time_notify_unref in H. destruct o as [o|]; [|injection H as <-; exact D]. eapply del_keeps; [|exact D]. eapply keeps_trans; [|exact (keeps_unref _ _ _ H)]. apply keeps_emit. exact I.
  - unfold add_handler in H. destruct o as [o|]; [|injection H as <-; exact D]. dres H. apply obj_nth in Q. destruct Q as [Q L]. cbv zeta in H. injection H as <-. destruct D as [D1 D2 D3 D4 D5 D6 D7].
    constructor; cbn [set_obj s_frames s_next s_trace s_objs conn left good].
    + intros p z Z LZ. destruct (nth_upd _ _ _ _ _ _ Q Z) as [[-> ->]|[NP Z']].
      * rewrite Nat.eqb_refl. cbn [set_handlers t_handlers]. rewrite (D1 o r Q L). reflexivity.
      * destruct (Nat.eqb_spec o p); [congruence|]. exact (D1 p z Z' LZ).
    + intros p Lp. rewrite upd_length in Lp. pose proof (nth_len _ _ _ Q). destruct (Nat.eqb_spec o p); [lia|]. exact (D2 p Lp).
    + intros p h M. destruct (Nat.eqb o p).
      * apply in_app_or in M. destruct M as [M|[<-|[]]]; [specialize (D3 p h M)|]; lia.
      * specialize (D3 p h M). lia.
    + exact D4.
    + intros c p l F. destruct (D5 c p l F) as (k & E & K & B). exists k. split; [exact E|]. split.
      * intros g G M. destruct (Nat.eqb o p); [|exact (K g G M)]. apply in_app_or in M. destruct M as [M|[M|[]]]; [exact (K g G M)|].
        subst g. specialize (B (s_next s)). rewrite in_app_iff in B. specialize (B (or_introl G)). lia.
      * intros g G. specialize (B g G). lia.
    + split; [exact I|exact D6].
    + intros p. destruct (Nat.eqb o p); [|apply D7]. apply nodup_snoc; [apply D7|]. intros M. specialize (D3 p (s_next s) M). lia.
  - unfold remove_handler in H. destruct o as [o|]; [|injection H as <-; exact D]. dres H. apply obj_nth in Q. destruct Q as [Q L]. injection H as <-. destruct D as [D1 D2 D3 D4 D5 D6 D7].
    constructor; cbn [emit set_obj s_frames s_next s_trace s_objs conn left good].
    + intros p z Z LZ. destruct (nth_upd _ _ _ _ _ _ Q Z) as [[-> ->]|[NP Z']].
      * rewrite Nat.eqb_refl. cbn [set_handlers t_handlers]. rewrite (D1 o r Q L). reflexivity.
      * destruct (Nat.eqb_spec o p); [congruence|]. exact (D1 p z Z' LZ).
    + intros p Lp. rewrite upd_length in Lp. pose proof (nth_len _ _ _ Q). destruct (Nat.eqb_spec o p); [lia|]. exact (D2 p Lp).
    + intros p g M. destruct (Nat.eqb o p); [apply filter_conn in M|]; exact (D3 p g M).
    + exact D4.
    + intros c p l F. destruct (D5 c p l F) as (k & E & K & B). exists k. split; [exact E|]. split; [|exact B].
      intros g G M. apply (K g G). destruct (Nat.eqb o p); [apply filter_conn in M|]; exact M.
    + split; [exact I|exact D6].
    + intros p. destruct (Nat.eqb o p); [apply NoDup_filter|]; apply D7.
  - eapply del_keeps; [exact (keeps_error _ _ _ H)|exact D].
  - cbn [fair] in FA. destruct (inv_begin s c V FA) as (s1 & o & x & E & V1 & P & X & F & F1 & T & KO & P1 & N). assert (s1 = s') by (cbn [step] in *; congruence). subst s1.
    assert (LN : length (s_objs s') = length (s_objs s)).
    { unfold callback_begin in H. dres H. dres H. dres H. dres H. cbv zeta in H. injection H as <-. cbn [emit set_frames set_io s_objs]. unfold ref in Q0. dres Q0. injection Q0 as <-. cbn [set_obj s_objs]. apply upd_length. }
    destruct (inst_obj s o V P) as (x1 & X1 & LX & _). assert (x1 = x) by congruence. subst x1. destruct D as [D1 D2 D3 D4 D5 D6 D7].
    constructor; rewrite ?T, ?F1, ?N, ?LN; cbn [conn left good in_frames f_obj].
    + intros p z Z LZ. destruct (KO p z Z) as (z0 & Z0 & HZ & L0). rewrite HZ. apply (D1 p z0 Z0). congruence.
    + intros p Lp. destruct (Nat.eqb_spec o p); [pose proof (nth_len _ _ _ X); lia|]. exact (D2 p Lp).
    + exact D3.
    + intros p. destruct (Nat.eqb o p); [discriminate|]. intros _. apply D4. rewrite F. reflexivity.
    + intros d p l G. injection G as <- <- <-. exists []. rewrite Nat.eqb_refl, (D1 o x X LX). cbn [app]. split; [reflexivity|]. split; [intros g []|]. intros g M. exact (D3 o g M).
    + split; [|exact D6]. split; [apply D4; rewrite F; reflexivity|apply D7].
    + exact D7.
  - destruct (inv_emission s V) as (s1 & E & V1 & SO & SN & K). assert (s1 = s') by congruence. subst s1. destruct (s_frames s) as [|[c o [|h l]] fs] eqn:F; try (subst s'; exact D).
    destruct K as (F1 & x & X & T). destruct (frame_inst s c o (h :: l) fs V F) as (-> & P & x1 & X1 & L & _). assert (x1 = x) by congruence. subst x1. destruct D as [D1 D2 D3 D4 D5 D6 D7].
    destruct (D5 c o (h :: l) F) as (k & EL & KN & B). rewrite (D1 o x X L) in T.
    destruct (existsb (Nat.eqb h) (conn o (s_trace s))) eqn:EX.
    + apply existsb_exists in EX. destruct EX as (h' & M & Q). apply Nat.eqb_eq in Q. subst h'. cbn [app] in T.
      assert (NI : ~ In h k) by (intros G; exact (KN h G M)).
      constructor; rewrite ?T, ?F1, ?SO, ?SN; cbn [conn left good].
      * exact D1.
      * intros p Lp. destruct (Nat.eqb_spec o p); [pose proof (nth_len _ _ _ X); lia|]. exact (D2 p Lp).
      * exact D3.
      * intros p. cbn [in_frames f_obj]. destruct (Nat.eqb o p) eqn:OP; [discriminate|]. intros _. apply D4. rewrite F. cbn [in_frames f_obj]. rewrite OP. reflexivity.
      * intros d p m G. injection G as <- <- <-. exists []. rewrite Nat.eqb_refl, EL, after_skip by exact NI. cbn [app]. split; [reflexivity|]. split; [intros g []|].
        intros g G. apply B. apply in_or_app. right. right. exact G.
      * split; [|exact D6]. exists k, l. auto.
      * exact D7.
    + assert (NI : ~ In h (conn o (s_trace s))).
      { intros M. assert (existsb (Nat.eqb h) (conn o (s_trace s)) = true) by (apply existsb_exists; exists h; split; [exact M|apply Nat.eqb_refl]). congruence. }
      cbn [app] in T. constructor; rewrite ?T, ?F1, ?SO, ?SN; auto.
      * intros p. cbn [in_frames f_obj]. intros G. apply D4. rewrite F. exact G.
      * intros d p m G. injection G as <- <- <-. exists (k ++ [h]). rewrite <- app_assoc. cbn [app]. split; [exact EL|]. split; [|exact B].
        intros g G. apply in_app_or in G. destruct G as [G|[<-|[]]]; [exact (KN g G)|exact NI].
  - destruct (s_frames s) as [|[c o [|h l]] fs] eqn:F; try (unfold callback_end in H; rewrite F in H; injection H as <-; exact D).
    eapply del_keeps; [exact (keeps_end _ _ _ _ _ F H)|]. destruct (frame_inst s c o [] fs V F) as (-> & P & x & X & L & _). destruct D as [D1 D2 D3 D4 D5 D6 D7].
    destruct (D5 c o [] F) as (k & EL & KN & B). rewrite app_nil_r in EL.
    constructor; cbn [emit set_frames s_frames s_next s_trace s_objs conn left good].
    + exact D1.
    + intros p Lp. destruct (Nat.eqb_spec o p); [pose proof (nth_len _ _ _ X); lia|]. exact (D2 p Lp).
    + exact D3.
    + intros p _. destruct (Nat.eqb o p) eqn:OP; [reflexivity|]. apply D4. rewrite F. cbn [in_frames f_obj]. rewrite OP. reflexivity.
    + discriminate.
    + split; [|exact D6]. exists k. auto.
    + exact D7.
Qed.
Lemma del_run l : forall s s', Inv s -> Del s -> all_along fair s l -> run s l = Ok s' -> Del s'.
Proof.
  induction l as [|a l IH]; intros s s' V D F E; [injection E as <-; exact D|]. destruct F as [Fa F]. cbn [run] in E.
  destruct (inv_step s a V Fa) as (s1 & X & V1). rewrite X in E, F. cbn [bind] in E. exact (IH s1 s' V1 (del_step _ _ _ V Fa D X) F E).
Qed.
Lemma del_start : Del start.
Proof.
  constructor; try reflexivity.
  - intros o x E. destruct o; discriminate.
  - intros o _. split; reflexivity.
  - intros o h [].
  - intros c o l E. discriminate.
  - intros o. constructor.
Qed.

(* Calls of an emission which has ended *)
Definition inside (o : nat) (e : event) : Prop := match e with EFire p | EEnd p => p <> o | _ => True end.
Lemma conn_stays o g seg tr : In g (conn o tr) -> ~ In (ERemove o g) seg -> In g (conn o (seg ++ tr)).
Proof.
  intros M. induction seg as [|e seg IH]; intros N; cbn [app]; [exact M|]. assert (N' : ~ In (ERemove o g) seg) by (intros Q; apply N; right; exact Q). specialize (IH N').
  destruct e; cbn [conn]; try exact IH.
  - destruct (Nat.eqb o0 o); [apply in_or_app; left|]; exact IH.
  - destruct (Nat.eqb_spec o0 o) as [->|]; [|exact IH]. apply filter_In. split; [exact IH|]. destruct (Nat.eqb_spec g h) as [->|]; [|reflexivity]. destruct N. left. reflexivity.
Qed.
Lemma sublist_skip l m k : sublist l m -> sublist l (m ++ k).
Proof. induction 1; cbn [app]; [induction k; constructor; assumption|constructor; assumption|constructor; assumption]. Qed.
Lemma sublist_snoc l m h : sublist l m -> sublist (l ++ [h]) (m ++ [h]).
Proof. induction 1; cbn [app]; [apply Sub_keep; constructor|constructor; assumption|constructor; assumption]. Qed.
Lemma removed_dec (o g : nat) (seg : list event) : In (ERemove o g) seg \/ ~ In (ERemove o g) seg.
Proof.
  induction seg as [|e seg [IH|IH]]; [right; intros []|left; right; exact IH|]. assert (D : e = ERemove o g \/ e <> ERemove o g).
  { destruct e; try (right; discriminate). destruct (Nat.eq_dec o0 o) as [->|]; [|right; congruence]. destruct (Nat.eq_dec h g) as [->|]; [left; reflexivity|right; congruence]. }
  destruct D as [->|N]; [left; left; reflexivity|right; intros [Q|Q]; [congruence|exact (IH Q)]].
Qed.

Lemma emission_calls o seg t0 : Forall (inside o) seg -> good (seg ++ EFire o :: t0) ->
  exists pre rest, left o (seg ++ EFire o :: t0) = Some rest /\ conn o t0 = pre ++ rest /\ sublist (calls o seg) pre /\
  forall h, In h pre -> In h (calls o seg) \/ In (ERemove o h) seg.
Proof.
  intros FI. induction FI as [|e seg IE _ IH]; cbn [app]; intros G.
  - exists [], (conn o t0). cbn [left]. rewrite Nat.eqb_refl. split; [reflexivity|]. split; [reflexivity|]. split; [constructor|]. intros h [].
  - destruct G as [Ge G]. destruct (IH G) as (pre & rest & L & C & SB & R).
    assert (SAME : left o (e :: seg ++ EFire o :: t0) = left o (seg ++ EFire o :: t0) -> calls o (e :: seg) = calls o seg ->
      exists pre rest, left o (e :: seg ++ EFire o :: t0) = Some rest /\ conn o t0 = pre ++ rest /\ sublist (calls o (e :: seg)) pre /\
      forall h, In h pre -> In h (calls o (e :: seg)) \/ In (ERemove o h) (e :: seg)).
    { intros E1 E2. exists pre, rest. rewrite E1, E2. split; [exact L|]. split; [exact C|]. split; [exact SB|]. intros h M. destruct (R h M) as [Q|Q]; [left; exact Q|right; right; exact Q]. }
    destruct e; try (apply SAME; reflexivity).
    + cbn [inside] in IE. apply SAME; [|reflexivity]. cbn [left]. destruct (Nat.eqb_spec o0 o); [congruence|reflexivity].
    + destruct (Nat.eqb_spec o0 o) as [->|NE]; [|apply SAME; cbn [left calls]; destruct (Nat.eqb_spec o0 o); congruence].
      destruct Ge as (k & t & EL & MH & NK). rewrite L in EL. injection EL as ->.
      assert (NI : ~ In h k) by (intros Q; exact (NK h Q MH)).
      exists (pre ++ k ++ [h]), t. cbn [left calls]. rewrite Nat.eqb_refl, L, after_skip by exact NI. split; [reflexivity|].
      split; [rewrite C, <- !app_assoc; reflexivity|]. split; [rewrite app_assoc; apply sublist_snoc, sublist_skip; exact SB|].
      intros g M. apply in_app_or in M. destruct M as [M|M]; [destruct (R g M) as [Q|Q]; [left; apply in_or_app; left; exact Q|right; right; exact Q]|].
      apply in_app_or in M. destruct M as [M|[<-|[]]].
      * right. right. destruct (removed_dec o g seg) as [Q|Q]; [exact Q|]. destruct (NK g M).
        change (In g (conn o (seg ++ [EFire o] ++ t0))). rewrite app_assoc. apply conn_stays; [rewrite C; apply in_or_app; right; apply in_or_app; left; exact M|].
        intros Z. apply in_app_or in Z. destruct Z as [Z|[Z|[]]]; [exact (Q Z)|discriminate].
      * left. apply in_or_app. right. left. reflexivity.
    + cbn [inside] in IE. apply SAME; [|reflexivity]. cbn [left]. destruct (Nat.eqb_spec o0 o); [congruence|reflexivity].
Qed.
Lemma good_app l tr : good (l ++ tr) -> good tr.
Proof. induction l as [|e l IH]; cbn [app good]; [auto|]. intros [_ G]. exact (IH G). Qed.
