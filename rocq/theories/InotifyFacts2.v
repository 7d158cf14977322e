(* What follows from the invariants *)
From Verif Require Import Base InotifyModel InotifySpec InotifyParse InotifyProofs InotifyProofs2 InotifyProofs3 InotifyMicro InotifyFacts.

Lemma inv_follows s : inv s -> exists c, follows (s_trace s) c /\ (s_stack s = [] -> c = Idle).
Proof.
  intros [C [H|[(i & q & H)|(i & q & A & _)]]].
  - exists Idle. split; [apply H|auto].
  - exists Idle. split; [apply H|auto].
  - pose proof (al_tale _ _ _ _ A) as T. destruct (al_phase _ _ _ _ A); cbn [tale] in T; try solve [exists Idle; auto].
    + destruct T as (p & F & _). eexists. split; [exact F|discriminate].
    + destruct T as (p0 & e & F & _). eexists. split; [exact F|discriminate].
    + destruct T as (p0 & e & F & _). eexists. split; [exact F|discriminate].
Qed.

(* ---------------- the library comes to an end ---------------- *)

Lemma unref_stack s i s' : unref_inst s i = Ok s' -> s_stack s' = s_stack s \/ s_stack s' = FClose i :: s_stack s.
Proof.
  unfold unref_inst. intros H. destruct (get (s_insts s) i) as [q|] eqn:G; [|discriminate]. apply get_inv in G. cbn [bind] in H.
  rewrite (put_inst_live _ _ _ _ G) in H. cbn [bind] in H. destruct (i_refs q - 1 =? 0); [|injection H as <-; auto]. right. injection H as <-. cbn [set_stack s_stack]. f_equal.
  match goal with |- s_stack (close ?x ?y) = _ => destruct (close_same x y) as (_ & -> & _) end. destruct (Nat.eqb (i_src q) 0); [reflexivity|].
  match goal with |- s_stack (remove_source ?x ?y) = _ => destruct (remove_source_same x y) as (_ & _ & -> & _) end. reflexivity.
Qed.
Lemma stop_stack s w s' : watch_stop s w = Ok s' -> s_stack s' = s_stack s.
Proof.
  intros H. unfold watch_stop in H. destruct (get (s_watches s) w) as [x|] eqn:G; [|discriminate]. apply get_inv in G. cbn [bind] in H.
  destruct (Z.geb_spec (w_wd x) 0); [|injection H as <-; auto].
  destruct (get (s_insts s) (w_inst x)) as [q|] eqn:GI; [|discriminate]. apply get_inv in GI. cbn [bind] in H.
  rewrite (put_inst_live _ _ _ _ GI) in H. cbn [bind] in H. erewrite put_watch_live in H by exact G. cbn [bind] in H. injection H as <-. reflexivity.
Qed.
Lemma wunref_stack s w s' : watch_unref s w = Ok s' -> s_stack s' = s_stack s \/ exists i, s_stack s' = FClose i :: s_stack s.
Proof.
  intros H. unfold watch_unref in H. destruct (get (s_watches s) w) as [x|] eqn:G; [|discriminate]. apply get_inv in G. cbn [bind] in H.
  rewrite (put_watch_live _ _ _ _ G) in H. cbn [bind] in H. destruct (w_refs x - 1 =? 0); [|injection H as <-; auto].
  destruct (watch_stop _ w) as [s2|] eqn:ST; [|discriminate]. cbn [bind] in H. apply stop_stack in ST. cbn in ST.
  destruct (release (s_watches s2) w) as [l|]; [|discriminate]. cbn [bind] in H. apply unref_stack in H. cbn in H. rewrite ST in H. destruct H; eauto.
Qed.

Definition finishes (s : state) : Prop :=
  exists l s', Forall (fun a => a = AGo \/ a = AReturn) l /\ run s l = Ok s' /\ inv s' /\ s_stack s' = [].

Lemma finish_step s a s' : a = AGo \/ a = AReturn -> step s a = Ok s' -> finishes s' -> finishes s.
Proof. intros A E (l & t & F & R & I & K). exists (a :: l), t. refine (conj _ (conj _ (conj I K))); [constructor; auto|]. cbn [run]. rewrite E. exact R. Qed.

Lemma go_ok s : inv s -> exists s', step s AGo = Ok s' /\ inv s'.
Proof. intros I. apply step_ok; cbn; auto. Qed.

Lemma finish_nil s : inv s -> s_stack s = [] -> finishes s.
Proof. intros I K. exists [], s. refine (conj _ (conj eq_refl (conj I K))). constructor. Qed.
Lemma finish_end s sid ok : inv s -> s_stack s = [FEnd sid ok] -> finishes s.
Proof.
  intros I K. destruct (go_ok _ I) as (s' & E & I'). eapply finish_step; [left; reflexivity|exact E|]. apply finish_nil; auto.
  cbn [step] in E. rewrite K in E. injection E as <-. unfold dispatch_end. destruct (source (set_stack s []) sid) as [[[z i] b]|]; [|reflexivity].
  destruct ok; [reflexivity|]. unfold remove_source. destruct (source (set_stack s []) sid); reflexivity.
Qed.
Lemma close_end_stack s i s' : close_end s i = Ok s' -> s_stack s' = s_stack s.
Proof.
  unfold close_end. intros H. destruct (get (s_insts s) i) as [q|]; [|discriminate]. cbn [bind] in H. destruct (release _ i) as [l|]; [|discriminate]. cbn [bind] in H.
  injection H as <-. destruct (close_same s (i_fd q)) as (_ & E & _). cbn [set_insts s_var]. destruct (s_var (close s (i_fd q))) as [j|]; [destruct (Nat.eqb i j)|]; exact E.
Qed.
Lemma finish_close s i k : inv s -> s_stack s = FClose i :: k -> finishes s.
Proof.
  intros I K. destruct (go_ok _ I) as (s' & E & I'). eapply finish_step; [left; reflexivity|exact E|].
  cbn [step] in E. rewrite K in E. apply close_end_stack in E. cbn in E.
  destruct I as [C [I|[(j & q & I)|(j & q & A & Q)]]].
  - destruct I as (_ & _ & _ & _ & [K0|(z & b & K0)] & _); rewrite K0 in K; discriminate.
  - destruct I as (_ & _ & _ & _ & _ & [K0|(z & b & K0)] & _); rewrite K0 in K; injection K as <- <-; [apply finish_nil; auto|eapply finish_end; eauto].
  - pose proof (al_phase _ _ _ _ A) as P. rewrite K in P. inversion P.
Qed.

Lemma inv_loop s i o n k : inv s -> s_stack s = FLoop i o n :: k -> exists sid, k = [FEnd sid true] /\ exists q p, live (s_insts s) i q /\ at_buf (i_buf q) o n p.
Proof.
  intros [C [I|[(j & q & I)|(j & q & A & Q)]]] K.
  - destruct I as (_ & _ & _ & _ & [K0|(z & b & K0)] & _); rewrite K0 in K; discriminate.
  - destruct I as (_ & _ & _ & _ & _ & [K0|(z & b & K0)] & _); rewrite K0 in K; discriminate.
  - pose proof (al_phase _ _ _ _ A) as P. rewrite K in P. destruct (phase_loop_inv _ _ _ _ _ _ _ P) as (-> & sid & Hs & -> & _).
    exists sid. split; auto. pose proof (al_tale _ _ _ _ A) as T. rewrite K in T. destruct T as (p & _ & B). exists q, p. split; [apply A|exact B].
Qed.

Lemma finish_emit n : (forall s i o k, inv s -> s_stack s = FLoop i o n :: k -> finishes s) ->
  forall m s i w wd ma c p la mx o k, inv s -> (mx - la <= m)%nat -> s_stack s = FEmit i w wd ma c p la mx :: FLoop i o n :: k -> finishes s.
Proof.
  intros L. induction m as [m IH] using lt_wf_ind. intros s i w wd ma c p la mx o k I Hm K.
  destruct (go_ok _ I) as (s' & E & I'). eapply finish_step; [left; reflexivity|exact E|]. cbn [step] in E. rewrite K in E. unfold emission in E.
  destruct (get (s_watches s) w) as [x|] eqn:G; [|discriminate]. cbn [bind] in E. destruct (find _ (w_handlers x)) as [id|] eqn:FI.
  - match type of E with bind ?X _ = _ => destruct X as [name|]; [|discriminate] end. cbn [bind] in E. injection E as <-.
    apply find_some in FI. destruct FI as [_ FI]. apply andb_prop in FI. destruct FI as [F1 F2]. apply Nat.ltb_lt in F1, F2.
    set (t := set_stack _ _) in I' |- *. assert (AR : step t AReturn = Ok (emit (set_stack t (FEmit i w wd ma c p id mx :: FLoop i o n :: k)) EReturn)) by reflexivity.
    destruct (step_ok t AReturn I' ltac:(exact Logic.I)) as (u & EU & IU). eapply finish_step; [right; reflexivity|exact EU|]. rewrite AR in EU. injection EU as <-.
    eapply (IH (mx - id)%nat); [lia|exact IU|apply le_n|reflexivity].
  - apply wunref_stack in E. cbn in E. destruct E as [E|[z E]]; [eapply L; eauto|eapply finish_close; eauto].
Qed.

Lemma finish_loop : forall m s i o n k, inv s -> (Z.to_nat n <= m)%nat -> s_stack s = FLoop i o n :: k -> finishes s.
Proof.
  induction m as [m IH] using lt_wf_ind. intros s i o n k I Hm K.
  destruct (inv_loop _ _ _ _ _ I K) as (sid & -> & q & p & Lq & B).
  destruct (go_ok _ I) as (s' & E & I'). eapply finish_step; [left; reflexivity|exact E|]. cbn [step] in E. rewrite K in E. unfold loop in E.
  rewrite (get_live _ _ _ Lq) in E. cbn [bind] in E.
  assert (LE : loop_end (set_stack s [FEnd sid true]) i = Ok s' -> finishes s').
  { intros H. unfold loop_end in H. apply unref_stack in H. cbn in H. destruct H as [H|H]; [eapply finish_end; eauto|eapply finish_close; eauto]. }
  destruct (Z.gtb_spec n 0) as [N0|]; [|apply LE, E].
  destruct p as [|e p]; [apply parse_end in B; lia|]. destruct (parse_step _ _ _ _ _ B) as (l & L0 & L1 & RL & (wd & RW & EW) & _). rewrite RL in E. cbn [bind] in E.
  destruct (Z.gtb_spec (16 + l) n) as [|]; [lia|]. rewrite RW in E. cbn [bind] in E.
  assert (LL : forall s i o k, inv s -> s_stack s = FLoop i o (n - (16 + l)) :: k -> finishes s) by (intros; eapply (IH (Z.to_nat (n - (16 + l)))); eauto; lia).
  destruct (t_lookup (i_watches q) (s32 wd)) as [w|].
  - destruct (get (s_watches s) w) as [x|]; [|discriminate]. cbn [bind] in E. destruct (put_watch s w _) as [s2|]; [|discriminate]. cbn [bind] in E.
    destruct (rd_u32 (i_buf q) (o + 4)) as [m1|]; [|discriminate]. cbn [bind] in E. destruct (rd_u32 (i_buf q) (o + 8)) as [c|]; [|discriminate]. cbn [bind] in E.
    injection E as <-. eapply (finish_emit _ LL); [exact I'|apply le_n|reflexivity].
  - injection E as <-. eapply LL; [exact I'|reflexivity].
Qed.

Lemma finish s : inv s -> finishes s.
Proof.
  intros I. pose proof I as I0. destruct I0 as [C [H|[(i & q & H)|(i & q & A & Q)]]].
  - destruct H as (_ & _ & _ & _ & [K0|(z & b & K0)] & _); [apply finish_nil; auto|eapply finish_end; eauto].
  - destruct H as (_ & _ & _ & _ & _ & [K0|(z & b & K0)] & _); eapply finish_close; eauto.
  - pose proof (al_phase _ _ _ _ A) as P. remember (s_stack s) as st eqn:K. symmetry in K.
    destruct P; try solve [apply finish_nil; auto|eapply finish_end; eauto|eapply finish_loop; eauto].
    + eapply (finish_emit n); [|exact I|apply le_n|exact K]. intros. eapply finish_loop; eauto.
    + destruct (step_ok s AReturn I ltac:(exact Logic.I)) as (u & EU & IU). eapply finish_step; [right; reflexivity|exact EU|].
      cbn [step] in EU. rewrite K in EU. injection EU as <-. eapply (finish_emit n); [|exact IU|apply le_n|reflexivity]. intros. eapply finish_loop; eauto.
Qed.

(* ---------------- destroyed watches are stopped ---------------- *)

Lemma micro_trace a s0 s t : micro a s0 s t -> (forall e, In e (s_trace s) -> In e (s_trace t)) /\
  forall w, In (EDestroy w) (s_trace t) -> In (EDestroy w) (s_trace s) \/ a = ACall (CDestroy w).
Proof.
  intros M. destruct M as [i q q' L E1 E2|i q q' NS L E1|w x x' L E1 E2 E3|e Pe|v l n m k Hn Hk|D NC|i q n l wd L Ea KA WD N1 N2|w x q L W LI WS|w x L W|i q k L LF|i q k L K NK|fd n Ea|Ea Es|fd L|dw Ea];
    try solve [split; fields; [intros; try right; auto|intros ?; try intros [?|?]; auto; subst; discriminate]].
  - destruct (close_same (set_stack s k) (i_fd q)) as (_ & _ & _ & e & E4 & Ne). cbn [emit set_insts s_trace]. rewrite E4. cbn [set_stack s_trace]. split.
    + intros; right; right; auto.
    + intros w [X|[X|X]]; [discriminate|subst; discriminate|auto].
  - split; fields; [intros; right; auto|]. intros w [X|X]; [injection X as ->|]; auto.
Qed.
Lemma micros_trace a s0 s t : micros a s0 s t -> (forall e, In e (s_trace s) -> In e (s_trace t)) /\
  forall w, In (EDestroy w) (s_trace t) -> In (EDestroy w) (s_trace s) \/ a = ACall (CDestroy w).
Proof.
  induction 1 as [|s t u M MS [I1 I2]]; [auto|]. destruct (micro_trace _ _ _ _ M) as [J1 J2]. split; auto. intros w H. destruct (I2 _ H); auto.
Qed.
Lemma story_micros a s0 s t : story s -> micros a s0 s t -> story t.
Proof. intros S0 M. induction M; auto. apply IHM. eapply story_micro; eauto. Qed.

Definition obeyed (s : state) : Prop := story s /\ forall w, In (EDestroy w) (s_trace s) -> exists i wd, In (EStop w i wd) (s_trace s).

Lemma obeyed_step s a s' : inv s -> obeyed s -> step s a = Ok s' -> obeyed s'.
Proof.
  intros I [S0 H] E. pose proof (ms_step _ _ _ I E) as M. split; [eapply story_micros; eauto|]. destruct (micros_trace _ _ _ _ M) as [T1 T2].
  intros w Hw. destruct (T2 _ Hw) as [X|X]; [destruct (H _ X) as (i & wd & Y); eauto|]. subst a. cbn [step] in E.
  destruct (callable (s_stack s)) eqn:K; [|injection E as <-; auto]. cbn [do_call] in E.
  destruct (watch_stop (emit s (EDestroy w)) w) as [s1|] eqn:ST; [|discriminate]. cbn [bind] in E. pose proof (fdok_call _ I K) as F.
  destruct (stop_micro (ACall (CDestroy w)) s (emit s (EDestroy w)) w s1) as [M1 F1]; auto; [left; left; reflexivity|].
  assert (S1 : story s1). { eapply story_micros; [|exact M1]. eapply (story_micro _ s); [exact S0|]. apply mi_destroy. reflexivity. }
  destruct (stop_after _ _ _ ST) as (x & Lx & Dx). destruct (st_done _ S1 w (live_lt _ _ _ Lx)) as (i & wd & X); [intros y Hy; rewrite (live_eq _ _ _ _ Hy Lx); exact Dx|].
  exists i, wd. pose proof (ms_wunref (ACall (CDestroy w)) s _ _ _ F1 E) as M2. apply (proj1 (micros_trace _ _ _ _ M2)), X.
Qed.
Lemma obeyed_run l : forall s s', inv s -> obeyed s -> all_along fair s l -> run s l = Ok s' -> obeyed s'.
Proof.
  induction l as [|a l IH]; intros s s' I H F R; cbn [run all_along] in *; [injection R as <-; auto|].
  destruct F as [F G]. destruct (step_ok _ _ I F) as (s1 & E & I1). rewrite E in *. cbn [bind] in R. apply (IH s1 s'); auto. apply (obeyed_step s a s1); auto.
Qed.

(* ---------------- handlers ---------------- *)

Lemma follows_tail e tr c : follows (e :: tr) c -> exists c', follows tr c'.
Proof.
  intros F. remember (e :: tr) as t eqn:E. revert E. induction F; intros E; try discriminate; try (injection E; intros; subst; eexists; eassumption). auto.
Qed.
Lemma follows_app a b c : follows (a ++ b) c -> exists c', follows b c'.
Proof. revert c. induction a as [|e a IH]; intros c F; [eauto|]. cbn in F. apply follows_tail in F. destruct F as [c' F]. eauto. Qed.
Lemma follows_incl tr c : follows tr c -> match c with Telling i w e ids l => incl ids (connected tr w) | _ => True end.
Proof.
  induction 1; cbn [connected]; auto.
  - apply incl_refl.
  - intros j Hj. apply IHfollows. right. exact Hj.
  - destruct c as [| |i v e ids l]; cbn [disconnect]; auto. cbn [connected]. rewrite (Nat.eqb_sym v w). destruct (Nat.eqb_spec w v) as [E|]; auto.
    intros j Hj. apply filter_In in Hj. apply filter_In. split; [apply IHfollows|]; apply Hj.
  - destruct c as [| |i v x ids l]; auto. destruct e; try discriminate; cbn [connected]; auto. destruct (Nat.eqb v w); auto. apply incl_appl. auto.
Qed.
Lemma follows_call w id e tr c : follows (ECall w id e :: tr) c -> exists i ids l, follows tr (Telling i w e (id :: ids) l).
Proof.
  intros F. remember (ECall w id e :: tr) as t eqn:E. revert E. induction F; intros E; try discriminate; eauto.
  - injection E as -> -> -> ->. eauto.
  - injection E as -> ->. discriminate.
Qed.
Lemma follows_look i wd o tr c : follows (ELook i wd o :: tr) c -> registered tr i wd = o.
Proof.
  intros F. remember (ELook i wd o :: tr) as t eqn:E. revert E. induction F; intros E; try discriminate; auto; try (injection E; intros; subst; auto; discriminate).
Qed.
