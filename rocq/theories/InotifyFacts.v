(* Further invariants *)
From Verif Require Import Base InotifyModel InotifySpec InotifyParse InotifyProofs InotifyProofs2 InotifyProofs3 InotifyMicro.

(* P is preserved by the changes of allowed actions, so by executions *)
Lemma along (P : state -> Prop) (OK : state -> action -> Prop) :
  (forall a s0 s t, OK s0 a -> P s -> micro a s0 s t -> P t) ->
  forall l s s', inv s -> P s -> all_along fair s l -> all_along OK s l -> run s l = Ok s' -> P s'.
Proof.
  intros M l. induction l as [|a l IH]; intros s s' I H F O R; cbn [run all_along] in *; [injection R as <-; auto|].
  destruct F as [F G]. destruct O as [O O2]. destruct (step_ok _ _ I F) as (s1 & E & I1). rewrite E in *. cbn [bind] in R.
  eapply (IH s1); eauto. pose proof (ms_step _ _ _ I E) as MS. clear - M H O MS. remember s as s0 eqn:E0 in MS at 1. rewrite <- E0 in O. clear E0.
  induction MS; eauto.
Qed.

(* ---------------- files ---------------- *)

Lemma live_upd_none {A} (h : list (option A)) a b x : live (upd h a None) b x -> a <> b /\ live h b x.
Proof. intros H. apply live_upd in H. destruct H as [[_ H]|H]; [discriminate|exact H]. Qed.

(* which descriptors are open, and whether they are files of inotify, stays the same *)
Definition same_files (l l' : list (option file)) : Prop :=
  (forall fd, (exists f, live l' fd f) <-> (exists f, live l fd f)) /\ (forall fd, (exists k, live l' fd (IFile k)) <-> (exists k, live l fd (IFile k))).
Lemma same_refl l : same_files l l.
Proof. split; reflexivity. Qed.
Lemma same_upd l fd k k' : live l fd (IFile k) -> same_files l (upd l fd (Some (IFile k'))).
Proof.
  intros L. split; intros z; (destruct (Nat.eq_dec fd z) as [<-|N]; [split; intros _; [eauto|eexists; eapply live_upd_eq, L]|]).
  - split; intros [f H]; exists f; apply live_upd_ne in H || apply live_upd_ne; auto.
  - split; intros [f H]; exists f; apply live_upd_ne in H || apply live_upd_ne; auto.
Qed.
Lemma kadd_same l fd n l' wd : kadd l fd n = Some (l', wd) -> same_files l l'.
Proof.
  unfold kadd. destruct (nth_error l fd) as [[[k|]|]|] eqn:E; try discriminate. destruct (find _ _) as [[m v]|]; intros H; injection H as <- <-; [apply same_refl|].
  eapply same_upd, E.
Qed.
Lemma krm_same l fd wd : same_files l (krm l fd wd).
Proof. unfold krm. destruct (nth_error l fd) as [[[k|]|]|] eqn:E; try apply same_refl. eapply same_upd, E. Qed.
Lemma kdrop_same l fd wd : same_files l (kdrop l fd wd).
Proof. unfold kdrop. destruct (nth_error l fd) as [[[k|]|]|] eqn:E; try apply same_refl. eapply same_upd, E. Qed.

Lemma close_fds s fd : forall z f, live (s_fds (close s fd)) z f <-> z <> fd /\ live (s_fds s) z f.
Proof.
  intros z f. unfold close. destruct (nth_error (s_fds s) fd) as [[g|]|] eqn:E; cbn.
  - split; [intros H; apply live_upd_none in H; intuition congruence|]. intros [N H]. apply live_upd_ne; auto.
  - split; [intros H|tauto]. split; auto. intros ->. unfold live in H. congruence.
  - split; [intros H|tauto]. split; auto. intros ->. unfold live in H. congruence.
Qed.
Lemma close_same s fd : s_insts (close s fd) = s_insts s /\ s_stack (close s fd) = s_stack s /\ s_watches (close s fd) = s_watches s /\
  exists e, s_trace (close s fd) = e :: s_trace s /\ neutral e = true.
Proof. unfold close. destruct (nth_error (s_fds s) fd) as [[g|]|]; cbn; repeat split; eexists; split; reflexivity. Qed.

(* no file of inotify is left behind *)
Definition no_leak (s : state) : Prop := forall fd, (exists k, live (s_fds s) fd (IFile k)) -> exists i q, live (s_insts s) i q /\ i_fd q = fd.

Lemma no_leak_micro a s0 s t : no_leak s -> micro a s0 s t -> no_leak t.
Proof.
  intros H M. unfold no_leak in *.
  assert (UP : forall i q q' fd, live (s_insts s) i q -> i_fd q' = i_fd q -> (exists j p, live (s_insts s) j p /\ i_fd p = fd) -> exists j p, live (upd (s_insts s) i (Some q')) j p /\ i_fd p = fd).
  { intros i q q' fd L E (j & p & Lp & Ep). destruct (Nat.eq_dec i j) as [<-|N].
    - exists i, q'. split; [eapply live_upd_eq, L|]. rewrite (live_eq _ _ _ _ Lp L) in Ep. congruence.
    - exists j, p. split; auto. apply live_upd_ne; auto. }
  destruct M as [i q q' L E1 E2|i q q' NS L E1|w x x' L E1 E2 E3|e Pe|v l n m k Hn Hk|D NC|i q n l wd L Ea KA WD N1 N2|w x q L W LI WS|w x L W|i q k L LF|i q k L K NK|fd n Ea|Ea Es|fd L|dw Ea]; fields; eauto.
  - intros fd [k Lk]. apply open_inv in Lk. destruct Lk as [[-> _]|Lk].
    + eexists _, _. split; [apply live_app_r|reflexivity].
    + destruct (H fd) as (j & p & Lp & Ep); [eauto|]. exists j, p. split; auto. apply live_app_l, Lp.
  - intros fd Hk. apply (proj2 (kadd_same _ _ _ _ _ KA)) in Hk. auto.
  - intros fd Hk. apply (proj2 (krm_same (s_fds s) (i_fd q) (w_wd x))) in Hk. auto.
  - intros fd [k' Lk]. apply live_upd_none in Lk. destruct Lk as [_ Lk]. eauto.
  - intros fd [k' Lk]. apply close_fds in Lk. destruct Lk as [N Lk]. fields. destruct (H fd) as (j & p & Lp & Ep); [eauto|]. exists j, p. split; auto. apply live_upd_ne; auto.
    intros <-. rewrite (live_eq _ _ _ _ Lp L) in Ep. congruence.
  - intros fd' Hk. apply (proj2 (kdrop_same (s_fds s) fd n)) in Hk. auto.
  - intros fd [k Lk]. apply open_inv in Lk. destruct Lk as [[-> Ek]|Lk]; [discriminate|]. eauto.
  - intros fd' [k Lk]. apply live_upd_none in Lk. destruct Lk as [_ Lk]. eauto.
Qed.

(* a descriptor which has been closed is not open until it is closed again *)
Definition no_foreign (s : state) : Prop :=
  (forall i q, In (FClose i) (s_stack s) -> live (s_insts s) i q -> forall f, ~ live (s_fds s) (i_fd q) f) /\ (forall fd, ~ In (EClose fd OFile) (s_trace s)).

Lemma no_foreign_micro a s0 s t : quiet s0 a -> no_foreign s -> micro a s0 s t -> no_foreign t.
Proof.
  intros QA [H T] M.
  assert (UP : forall i q q', live (s_insts s) i q -> i_fd q' = i_fd q -> forall j p, In (FClose j) (s_stack s) -> live (upd (s_insts s) i (Some q')) j p -> forall f, ~ live (s_fds s) (i_fd p) f).
  { intros i q q' L E j p Hj Hp. apply live_upd in Hp. destruct Hp as [[<- Hp]|[_ Hp]]; [injection Hp as <-; rewrite E|]; eauto. }
  assert (SA : forall l, same_files (s_fds s) l -> forall i q, In (FClose i) (s_stack s) -> live (s_insts s) i q -> forall f, ~ live l (i_fd q) f).
  { intros l [S1 _] i q Hi Hq f Hf. destruct (proj1 (S1 (i_fd q))) as [g Hg]; [eauto|]. eapply H; eauto. }
  assert (TE : forall e, (forall fd, e <> EClose fd OFile) -> forall fd, ~ In (EClose fd OFile) (e :: s_trace s)).
  { intros e He fd [X|X]; [eapply He, X|eapply T, X]. }
  destruct M as [i q q' L E1 E2|i q q' NS L E1|w x x' L E1 E2 E3|e Pe|v l n m k Hn Hk|D NC|i q n l wd L Ea KA WD N1 N2|w x q L W LI WS|w x L W|i q k L LF|i q k L K NK|fd n Ea|Ea Es|fd L|dw Ea]; split; fields; eauto.
  - apply TE. intros fd ->. discriminate.
  - intros i q Hi. apply Hk in Hi. eauto.
  - intros i q Hi. destruct (NC _ Hi).
  - apply TE. discriminate.
  - apply SA. eapply kadd_same, KA.
  - apply TE. discriminate.
  - apply SA, krm_same.
  - apply TE. discriminate.
  - intros j p Hj Hp f Hf. apply live_upd_none in Hf. destruct Hf as [N Hf]. cbn [In] in Hj. destruct Hj as [Hj|Hj].
    + injection Hj as <-. rewrite (live_eq _ _ _ _ Hp L) in N. congruence.
    + eapply H; eauto.
  - apply TE. discriminate.
  - intros j p Hj. destruct (close_same (set_stack s k) (i_fd q)) as (_ & E & _). cbn in E. rewrite E in Hj. destruct (NK _ Hj).
  - intros fd. unfold close. cbn [set_stack s_fds]. destruct (nth_error (s_fds s) (i_fd q)) as [[g|]|] eqn:E; cbn.
    + destruct (H i q) with (f := g); auto. rewrite K. left. reflexivity.
    + intros [X|[X|X]]; try discriminate. eapply T, X.
    + intros [X|[X|X]]; try discriminate. eapply T, X.
  - apply SA, kdrop_same.
  - subst. cbn in QA. intros i q Hi. destruct (QA _ Hi).
  - intros i q Hi Hq f Hf. apply live_upd_none in Hf. destruct Hf as [_ Hf]. eapply H; eauto.
  - apply TE. discriminate.
Qed.

(* ---------------- polling ---------------- *)

Definition watched (s : state) : Prop := (forall i q, live (s_insts s) i q -> i_src q <> O) /\ (1 <= s_nsrc s)%nat.

Lemma watched_micro a s0 s t : sound a -> watched s -> micro a s0 s t -> watched t.
Proof.
  intros SA [H N] M.
  assert (UP : forall i q q', live (s_insts s) i q -> i_src q' = i_src q -> forall j p, live (upd (s_insts s) i (Some q')) j p -> i_src p <> O).
  { intros i q q' L E j p Hp. apply live_upd in Hp. destruct Hp as [[<- Hp]|[_ Hp]]; [injection Hp as <-; rewrite E|]; eauto. }
  destruct M as [i q q' L E1 E2|i q q' NS L E1|w x x' L E1 E2 E3|e Pe|v l n m k Hn Hk|D NC|i q n l wd L Ea KA WD N1 N2|w x q L W LI WS|w x L W|i q k L LF|i q k L K NK|fd n Ea|Ea Es|fd L|dw Ea]; split; fields; eauto; try tauto; try lia.
  - intros i q Hq. apply live_app in Hq. destruct Hq as [[_ ->]|Hq]; [cbn; lia|eauto].
  - intros j p Hp. apply live_upd_none in Hp. destruct Hp as [_ Hp]. eauto.
  - unfold close. cbn [set_stack s_fds]. destruct (nth_error (s_fds s) (i_fd q)) as [[g|]|]; exact N.
Qed.

(* ---------------- watches of different objects ---------------- *)

Definition up (s : state) (w i n : nat) (wd : Z) : Prop := In (ENew w i n wd) (s_trace s) /\ ~ In (EStop w i wd) (s_trace s).

Record served (s : state) : Prop := {
  j_list : forall i q k n wd, live (s_insts s) i q -> live (s_fds s) (i_fd q) (IFile k) -> In (n, wd) (k_list k) -> exists w, up s w i n wd;
  j_last : forall i q k, live (s_insts s) i q -> live (s_fds s) (i_fd q) (IFile k) -> 0 <= k_last k /\ forall w n wd, In (ENew w i n wd) (s_trace s) -> wd <= k_last k;
  j_wd : forall w i n wd, In (ENew w i n wd) (s_trace s) -> 1 <= wd /\ (i < length (s_insts s))%nat /\ (w < length (s_watches s))%nat;
  j_up : forall w i n wd, up s w i n wd -> registered (s_trace s) i wd = Some w /\ exists x, live (s_watches s) w x /\ w_wd x = wd /\ w_inst x = i;
  j_live : forall w x, live (s_watches s) w x -> 0 <= w_wd x -> exists n, up s w (w_inst x) n (w_wd x);
  j_stop : forall w i wd, In (EStop w i wd) (s_trace s) -> (w < length (s_watches s))%nat;
  j_one : forall i q j p, live (s_insts s) i q -> live (s_insts s) j p -> i = j }.

Definition inert (e : event) : Prop := (forall w i n wd, e <> ENew w i n wd) /\ (forall w i wd, e <> EStop w i wd).
Lemma inert_reg e tr i wd : inert e -> registered (e :: tr) i wd = registered tr i wd.
Proof. intros [A B]. destruct e; auto; [destruct (A w i0 n wd0 eq_refl)|destruct (B w i0 wd0 eq_refl)]. Qed.
Lemma inert_new e tr w i n wd : inert e -> In (ENew w i n wd) (e :: tr) <-> In (ENew w i n wd) tr.
Proof. intros [A _]. cbn. split; [intros [H|H]; [destruct (A _ _ _ _ H)|auto]|auto]. Qed.
Lemma inert_stop e tr w i wd : inert e -> In (EStop w i wd) (e :: tr) <-> In (EStop w i wd) tr.
Proof. intros [_ A]. cbn. split; [intros [H|H]; [destruct (A _ _ _ H)|auto]|auto]. Qed.

(* the same but for what does not matter *)
Lemma served_same s t : (forall i, registered (s_trace t) i = registered (s_trace s) i) ->
  (forall w i n wd, In (ENew w i n wd) (s_trace t) <-> In (ENew w i n wd) (s_trace s)) -> (forall w i wd, In (EStop w i wd) (s_trace t) <-> In (EStop w i wd) (s_trace s)) ->
  (length (s_insts t) = length (s_insts s)) -> (length (s_watches t) = length (s_watches s)) ->
  (forall i q, live (s_insts t) i q -> exists p, live (s_insts s) i p /\ i_fd p = i_fd q) ->
  (forall fd k, live (s_fds t) fd (IFile k) -> live (s_fds s) fd (IFile k)) ->
  (forall w x, live (s_watches s) w x -> exists y, live (s_watches t) w y /\ w_wd y = w_wd x /\ w_inst y = w_inst x) ->
  (forall w y, live (s_watches t) w y -> exists x, live (s_watches s) w x /\ w_wd y = w_wd x /\ w_inst y = w_inst x) -> served s -> served t.
Proof.
  intros RG NW ST LI LW LV FD W1 W2 J. assert (UP : forall w i n wd, up t w i n wd <-> up s w i n wd) by (intros; unfold up; rewrite NW, ST; reflexivity).
  constructor.
  - intros i q k n wd Hi Hf Hn. destruct (LV _ _ Hi) as (p & Hp & Ep). destruct (j_list _ J i p k n wd Hp) as [w Hw]; auto; [rewrite Ep; auto|]. exists w. apply UP, Hw.
  - intros i q k Hi Hf. destruct (LV _ _ Hi) as (p & Hp & Ep). destruct (j_last _ J i p k Hp) as [H1 H2]; [rewrite Ep; auto|]. split; auto. intros w n wd Hw. apply NW in Hw. eauto.
  - intros w i n wd Hw. apply NW in Hw. rewrite LI, LW. eapply j_wd; eauto.
  - intros w i n wd Hw. apply UP in Hw. rewrite RG. destruct (j_up _ J _ _ _ _ Hw) as [H1 (x & Hx & E1 & E2)]. split; auto. destruct (W1 _ _ Hx) as (y & Hy & E3 & E4). exists y. split; [auto|split; congruence].
  - intros w y Hy Hw. destruct (W2 _ _ Hy) as (x & Hx & E1 & E2). destruct (j_live _ J w x Hx) as [n Hn]; [lia|]. exists n. apply UP. rewrite E1, E2. exact Hn.
  - intros w i wd Hw. apply ST in Hw. rewrite LW. eapply j_stop; eauto.
  - intros i q j p Hi Hj. destruct (LV _ _ Hi) as (q' & Hq & _). destruct (LV _ _ Hj) as (p' & Hp & _). eapply j_one; eauto.
Qed.

Lemma up_unique s w v i n m wd : served s -> up s w i n wd -> up s v i m wd -> w = v.
Proof. intros J H K. apply (j_up _ J) in H, K. destruct H as [H _]. destruct K as [K _]. congruence. Qed.

Lemma served_micro a s0 s t : distinct s0 a -> served s -> micro a s0 s t -> served t.
Proof.
  intros QA J M.
  assert (W0 : forall w x, live (s_watches s) w x -> exists y, live (s_watches s) w y /\ w_wd y = w_wd x /\ w_inst y = w_inst x) by eauto.
  assert (W0' : forall w x, live (s_watches s) w x -> exists y, live (s_watches s) w y /\ w_wd x = w_wd y /\ w_inst x = w_inst y) by eauto.
  assert (I0 : forall i q, live (s_insts s) i q -> exists p, live (s_insts s) i p /\ i_fd p = i_fd q) by eauto.
  assert (U0 : forall i q q', live (s_insts s) i q -> i_fd q' = i_fd q -> forall j p, live (upd (s_insts s) i (Some q')) j p -> exists r, live (s_insts s) j r /\ i_fd r = i_fd p).
  { intros i q q' L E j p Hp. apply live_upd in Hp. destruct Hp as [[<- Hp]|[_ Hp]]; [injection Hp as <-; rewrite E|]; eauto. }
  assert (X : forall w i wd, In (EStop w i wd) (s_trace s) <-> In (EStop w i wd) (s_trace s)) by reflexivity.
  destruct M as [i q q' L E1 E2|i q q' NS L E1|w x x' L E1 E2 E3|e Pe|v l n m k Hn Hk|D NC|i q n l wd L Ea KA WD N1 N2|w x q L W LI WS|w x L W|i q k L LF|i q k L K NK|fd n Ea|Ea Es|fd L|dw Ea].
  - apply (served_same s); fields; auto; try reflexivity; [apply upd_length|eauto].
  - apply (served_same s); fields; auto; try reflexivity; [apply upd_length|eauto].
  - apply (served_same s); fields; auto; try reflexivity; [apply upd_length| |].
    + intros v y Hy. destruct (Nat.eq_dec w v) as [<-|N]; [|exists y; split; auto; apply live_upd_ne; auto].
      exists x'. rewrite (live_eq _ _ _ _ Hy L). split; auto. eapply live_upd_eq, L.
    + intros v y Hy. apply live_upd in Hy. destruct Hy as [[<- Hy]|[_ Hy]]; [injection Hy as <-; exists x|]; eauto.
  - assert (IN : inert e) by (split; intros; intros ->; discriminate). apply (served_same s); fields; auto; try reflexivity.
    + intros i. cbn [registered]. destruct IN as [A B]. destruct e; auto; [destruct (A w i0 n wd eq_refl)|destruct (B w i0 wd eq_refl)].
    + intros. apply inert_new, IN.
    + intros. apply inert_stop, IN.
  - apply (served_same s); fields; auto; reflexivity.
  - assert (IN : inert (EInit (length (s_insts s)) (lowest (s_fds s)))) by (split; discriminate).
    assert (UPE : forall w i n wd, up (emit s (EInit (length (s_insts s)) (lowest (s_fds s)))) w i n wd <-> up s w i n wd).
    { intros. unfold up. fields. rewrite inert_new, inert_stop by auto. reflexivity. }
    constructor; fields.
    + intros i q k n wd Hi Hf Hn. apply live_app in Hi. destruct Hi as [[-> ->]|Hi]; [|destruct (D _ _ Hi)]. cbn in Hf.
      pose proof (live_eq _ _ _ _ Hf (open_new _ _)) as E. injection E as ->. destruct Hn.
    + intros i q k Hi Hf. apply live_app in Hi. destruct Hi as [[-> ->]|Hi]; [|destruct (D _ _ Hi)]. cbn in Hf.
      pose proof (live_eq _ _ _ _ Hf (open_new _ _)) as E. injection E as ->. cbn. split; [lia|]. intros w n wd [Hw|Hw]; [discriminate|]. apply (j_wd _ J) in Hw. lia.
    + intros w i n wd Hw. apply inert_new in Hw; auto. rewrite app_length. apply (j_wd _ J) in Hw. cbn. lia.
    + intros w i n wd Hw. apply UPE in Hw. rewrite inert_reg by auto. eapply j_up; eauto.
    + intros w x Hx Hw. destruct (j_live _ J w x Hx Hw) as [n Hn]. exists n. apply UPE, Hn.
    + intros w i wd Hw. apply inert_stop in Hw; auto. eapply j_stop; eauto.
    + intros i q j p Hi Hj. apply live_app in Hi, Hj. destruct Hi as [[-> _]|Hi]; [|destruct (D _ _ Hi)]. destruct Hj as [[-> _]|Hj]; [auto|destruct (D _ _ Hj)].
  - (* a new watch *)
    subst a. cbn in QA. unfold kadd in KA. destruct (nth_error (s_fds s) (i_fd q)) as [[[k|]|]|] eqn:EF; try discriminate KA.
    destruct (find _ (k_list k)) as [[m wd']|] eqn:FI.
    { exfalso. apply find_some in FI. destruct FI as [FI Em]. cbn in Em. apply Nat.eqb_eq in Em. subst m. destruct (j_list _ J i q k n wd' L EF FI) as [w [H1 H2]].
      apply H2, N2. eapply QA, N1, H1. }
    injection KA as <- <-. destruct (j_last _ J i q k L EF) as [KL KW]. set (wd := k_last k + 1) in *. set (w0 := length (s_watches s)) in *.
    assert (NS : ~ In (EStop w0 i wd) (s_trace s)) by (intros H; apply (j_stop _ J) in H; lia).
    assert (UPE : forall w j m v, up (emit s (ENew w0 i n wd)) w j m v <-> up s w j m v \/ (w = w0 /\ j = i /\ m = n /\ v = wd)).
    { intros w j m v. unfold up. cbn [emit s_trace In]. split.
      - intros [[H|H] H2]; [injection H; intros; subst; auto|]. left. split; auto.
      - intros [[H1 H2]|(-> & -> & -> & ->)]; (split; [auto|]); intros [H|H]; try discriminate; auto. }
    constructor; fields.
    + intros j p k' m v Hj Hf Hm. pose proof (j_one _ J _ _ _ _ Hj L). subst j. rewrite (live_eq _ _ _ _ Hj L) in Hf.
      pose proof (live_eq _ _ _ _ Hf (live_upd_eq _ _ _ _ EF)) as E. injection E as ->. cbn [k_list In] in Hm. destruct Hm as [Hm|Hm].
      * injection Hm as <- <-. exists w0. apply UPE. auto.
      * destruct (j_list _ J i q k m v L EF Hm) as [w Hw]. exists w. apply UPE. auto.
    + intros j p k' Hj Hf. pose proof (j_one _ J _ _ _ _ Hj L). subst j. rewrite (live_eq _ _ _ _ Hj L) in Hf.
      pose proof (live_eq _ _ _ _ Hf (live_upd_eq _ _ _ _ EF)) as E. injection E as ->. cbn [k_last]. split; [lia|].
      intros w m v [Hw|Hw]; [injection Hw; intros; subst; lia|]. apply KW in Hw. lia.
    + intros w j m v [Hw|Hw].
      * injection Hw as <- <- <- <-. rewrite app_length. cbn. pose proof (live_lt _ _ _ L). lia.
      * apply (j_wd _ J) in Hw. rewrite app_length. cbn. lia.
    + intros w j m v Hw. apply UPE in Hw. cbn [registered]. destruct Hw as [Hw|(-> & -> & -> & ->)].
      * destruct (j_up _ J _ _ _ _ Hw) as [H1 (x & Hx & E1 & E2)]. split; [|exists x; split; auto; apply live_app_l, Hx].
        destruct (Nat.eqb_spec j i) as [->|]; auto. destruct (Z.eqb_spec v wd) as [Ev|]; auto. destruct Hw as [Hw _]. apply KW in Hw. lia.
      * rewrite Nat.eqb_refl, Z.eqb_refl. split; auto. eexists. split; [apply live_app_r|]. auto.
    + intros w x Hx Hd. apply live_app in Hx. destruct Hx as [[-> ->]|Hx].
      * exists n. apply UPE. right. cbn. auto.
      * destruct (j_live _ J w x Hx Hd) as [m Hm]. exists m. apply UPE. auto.
    + intros w j v [Hw|Hw]; [discriminate|]. apply (j_stop _ J) in Hw. rewrite app_length. lia.
    + eapply j_one, J.
  - (* stop *)
    destruct (j_live _ J w x L W) as [n0 U0w]. set (i := w_inst x) in *. set (wd := w_wd x) in *.
    assert (UPE : forall v j m d, up (emit s (EStop w i wd)) v j m d <-> up s v j m d /\ ~ (j = i /\ d = wd)).
    { intros v j m d. unfold up. cbn [emit s_trace In]. split.
      - intros [[H|H] H2]; [discriminate|]. split; [split; auto|]. intros [-> ->].
        assert (U : up s v i m wd) by (split; auto). pose proof (up_unique _ _ _ _ _ _ _ J U U0w) as E. subst v. auto.
      - intros [[H1 H2] H3]. split; auto. intros [H|H]; auto. injection H as <- <- <-. auto. }
    constructor; fields.
    + intros j p k' m v Hj Hf Hm. pose proof (j_one _ J _ _ _ _ Hj LI). subst j. rewrite (live_eq _ _ _ _ Hj LI) in Hf. unfold krm in Hf.
      destruct (nth_error (s_fds s) (i_fd q)) as [[[k|]|]|] eqn:EF; try (unfold live in Hf; congruence).
      pose proof (live_eq _ _ _ _ Hf (live_upd_eq _ _ _ _ EF)) as E. injection E as ->. cbn [k_list] in Hm. apply filter_In in Hm. destruct Hm as [Hm Hv]. cbn in Hv.
      destruct (j_list _ J i q k m v LI EF Hm) as [w' Hw]. exists w'. apply UPE. split; auto. intros [_ E]. subst v. rewrite Z.eqb_refl in Hv. discriminate.
    + intros j p k' Hj Hf. pose proof (j_one _ J _ _ _ _ Hj LI). subst j. rewrite (live_eq _ _ _ _ Hj LI) in Hf. unfold krm in Hf.
      destruct (nth_error (s_fds s) (i_fd q)) as [[[k|]|]|] eqn:EF; try (unfold live in Hf; congruence).
      pose proof (live_eq _ _ _ _ Hf (live_upd_eq _ _ _ _ EF)) as E. injection E as ->. cbn [k_last]. destruct (j_last _ J i q k LI EF) as [H1 H2]. split; auto.
      intros v m d [Hw|Hw]; [discriminate|eauto].
    + intros v j m d [Hw|Hw]; [discriminate|]. rewrite upd_length. eapply j_wd; eauto.
    + intros v j m d Hw. apply UPE in Hw. destruct Hw as [Hw N]. destruct (j_up _ J _ _ _ _ Hw) as [H1 (y & Hy & E1 & E2)]. cbn [registered]. split.
      * destruct (Nat.eqb_spec j i) as [->|]; auto. destruct (Z.eqb_spec d wd) as [->|]; auto. destruct N; auto.
      * exists y. split; auto. apply live_upd_ne; auto. intros <-. rewrite (live_eq _ _ _ _ Hy L) in *. apply N. auto.
    + intros v y Hy Hd. apply live_upd in Hy. destruct Hy as [[<- Hy]|[N Hy]]; [injection Hy as <-; cbn in Hd; lia|].
      destruct (j_live _ J v y Hy Hd) as [m Hm]. exists m. apply UPE. split; auto. intros [E1 E2].
      assert (U : up s v i m wd) by (rewrite <- E1, <- E2; auto). apply N. symmetry. eapply up_unique; eauto.
    + intros v j d [Hw|Hw]; [injection Hw as <- <- <-; rewrite upd_length; apply (live_lt _ _ _ L)|]. rewrite upd_length. eapply j_stop; eauto.
    + eapply j_one, J.
  - (* freed *)
    constructor; fields; try apply J.
    + intros v i n wd Hw. rewrite upd_length. eapply j_wd; eauto.
    + intros v i n wd Hw. destruct (j_up _ J _ _ _ _ Hw) as [H1 (y & Hy & E1 & E2)]. split; auto. exists y. split; auto. apply live_upd_ne; auto. intros <-.
      rewrite (live_eq _ _ _ _ Hy L) in *. destruct Hw as [Hw _]. apply (j_wd _ J) in Hw. lia.
    + intros v y Hy Hd. apply live_upd_none in Hy. destruct Hy as [_ Hy]. apply (j_live _ J v y Hy Hd).
    + intros v i wd Hw. rewrite upd_length. eapply j_stop; eauto.
  - assert (IN : inert (EClose (i_fd q) (IFile k))) by (split; discriminate). apply (served_same s); fields; auto; try reflexivity.
    + intros. apply inert_new, IN.
    + intros. apply inert_stop, IN.
    + intros fd k' Hf. apply live_upd_none in Hf. apply Hf.
  - destruct (close_same (set_stack s k) (i_fd q)) as (E1 & E2 & E3 & e & E4 & Ne).
    assert (IN : inert e) by (split; intros; intros ->; discriminate). assert (IG : inert (EGoneInst i)) by (split; discriminate).
    apply (served_same s); cbn [emit set_insts s_trace s_insts s_watches s_fds]; rewrite ?E3, ?E4; cbn [set_stack s_trace s_watches]; auto.
    + intros j. cbn [registered]. destruct e; try discriminate Ne; reflexivity.
    + intros. rewrite !inert_new by auto. reflexivity.
    + intros. rewrite !inert_stop by auto. reflexivity.
    + apply upd_length.
    + intros j p Hp. apply live_upd_none in Hp. destruct Hp as [_ Hp]. eauto.
    + intros fd k' Hf. apply close_fds in Hf. apply Hf.
  - (* an object goes away *)
    assert (KD : forall fd' k', live (kdrop (s_fds s) fd n) fd' (IFile k') -> exists k, live (s_fds s) fd' (IFile k) /\ k_last k' = k_last k /\ forall x, In x (k_list k') -> In x (k_list k)).
    { intros fd' k' H. unfold kdrop in H. destruct (nth_error (s_fds s) fd) as [[[k|]|]|] eqn:EF; eauto. apply live_upd in H. destruct H as [[<- H]|[_ H]]; eauto.
      injection H as <-. exists k. split; auto. split; auto. cbn. intros x Hx. apply filter_In in Hx. apply Hx. }
    constructor; fields; try apply J.
    + intros i q k' m wd Hi Hf Hn. destruct (KD _ _ Hf) as (k & Hk & _ & HI). eapply (j_list _ J); eauto.
    + intros i q k' Hi Hf. destruct (KD _ _ Hf) as (k & Hk & -> & HI). eapply (j_last _ J); eauto.
  - apply (served_same s); fields; auto; try reflexivity. intros fd k Hf. apply open_inv in Hf. destruct Hf as [[_ Hf]|Hf]; [discriminate|auto].
  - apply (served_same s); fields; auto; try reflexivity. intros fd' k Hf. apply live_upd_none in Hf. apply Hf.
  - assert (IN : inert (EDestroy dw)) by (split; discriminate). apply (served_same s); fields; auto; try reflexivity.
    + intros. apply inert_new, IN.
    + intros. apply inert_stop, IN.
Qed.

(* the kernel watches the objects *)
Definition stays (a : action) : Prop := match a with ADrop _ _ => False | _ => True end.
Definition listed (s : state) : Prop :=
  served s /\ forall w i n wd q k, up s w i n wd -> live (s_insts s) i q -> live (s_fds s) (i_fd q) (IFile k) -> In (n, wd) (k_list k).

Lemma listed_micro a s0 s t : distinct s0 a /\ stays a -> listed s -> micro a s0 s t -> listed t.
Proof.
  intros [QA ST] [J K0] M. split; [eapply served_micro; eauto|].
  assert (EQ : forall w i n wd, up s w i n wd <-> up s w i n wd) by reflexivity.
  assert (G : (forall w i n wd, up t w i n wd <-> up s w i n wd) -> (forall i q, live (s_insts t) i q -> (i < length (s_insts s))%nat -> exists p, live (s_insts s) i p /\ i_fd p = i_fd q) ->
    (forall fd k, live (s_fds t) fd (IFile k) -> fd = fd -> live (s_fds s) fd (IFile k)) ->
    forall w i n wd q k, up t w i n wd -> live (s_insts t) i q -> live (s_fds t) (i_fd q) (IFile k) -> In (n, wd) (k_list k)).
  { intros H1 H2 H3 w i n wd q k Hu Hi Hf. apply H1 in Hu. destruct (H2 i q Hi) as (p & Hp & Ep).
    - destruct Hu as [Hu _]. apply (j_wd _ J) in Hu. lia.
    - eapply K0; eauto. rewrite Ep. apply H3; auto. }
  assert (INE : forall e, inert e -> forall w i n wd, In (ENew w i n wd) (e :: s_trace s) /\ ~ In (EStop w i wd) (e :: s_trace s) <-> up s w i n wd).
  { intros e IN w i n wd. rewrite inert_new, inert_stop by auto. reflexivity. }
  assert (U0 : forall i q q', live (s_insts s) i q -> i_fd q' = i_fd q -> forall j p, live (upd (s_insts s) i (Some q')) j p -> exists r, live (s_insts s) j r /\ i_fd r = i_fd p).
  { intros i q q' L E j p Hp. apply live_upd in Hp. destruct Hp as [[<- Hp]|[_ Hp]]; [injection Hp as <-; rewrite E|]; eauto. }
  destruct M as [i q q' L E1 E2|i q q' NS L E1|w x x' L E1 E2 E3|e Pe|v l n m k Hn Hk|D NC|i q n l wd L Ea KA WD N1 N2|w x q L W LI WS|w x L W|i q k L LF|i q k L K NK|fd n Ea|Ea Es|fd L|dw Ea].
  - apply G; [exact EQ| |fields; auto]. fields. eauto.
  - apply G; [exact EQ| |fields; auto]. fields. eauto.
  - apply G; [exact EQ|fields; eauto|fields; auto].
  - apply G; [|fields; eauto|fields; auto]. assert (IN : inert e) by (split; intros; intros ->; discriminate). intros. apply INE, IN.
  - apply G; [exact EQ|fields; eauto|fields; auto].
  - intros w i n wd q k Hu Hi Hf. fields. apply live_app in Hi. destruct Hi as [[-> ->]|Hi]; [|destruct (D _ _ Hi)].
    apply INE in Hu; [|split; discriminate]. destruct Hu as [Hu _]. apply (j_wd _ J) in Hu. lia.
  - intros w j m v p k' [H1 H2] Hj Hf. fields. pose proof (j_one _ J _ _ _ _ Hj L). subst j. rewrite (live_eq _ _ _ _ Hj L) in Hf.
    unfold kadd in KA. destruct (nth_error (s_fds s) (i_fd q)) as [[[k|]|]|] eqn:EF; try discriminate KA.
    destruct (find _ (k_list k)) as [[z wd']|] eqn:FI.
    + exfalso. apply find_some in FI. destruct FI as [FI Em]. cbn in Em. apply Nat.eqb_eq in Em. subst z. destruct (j_list _ J i q k n wd' L EF FI) as [y [X1 X2]].
      subst a. cbn in QA. apply X2, N2. eapply QA, N1, X1.
    + injection KA as <- <-. pose proof (live_eq _ _ _ _ Hf (live_upd_eq _ _ _ _ EF)) as E. injection E as ->. cbn [k_list In].
      destruct H1 as [H1|H1]; [injection H1; intros; subst; auto|]. right. apply (K0 w i m v q k); auto. split; auto. intros X. apply H2. right. exact X.
  - destruct (j_live _ J w x L W) as [n0 U0w]. intros v j m d p k' [H1 H2] Hj Hf. fields. pose proof (j_one _ J _ _ _ _ Hj LI). subst j. rewrite (live_eq _ _ _ _ Hj LI) in Hf.
    unfold krm in Hf. destruct (nth_error (s_fds s) (i_fd q)) as [[[k|]|]|] eqn:EF; try (unfold live in Hf; congruence).
    pose proof (live_eq _ _ _ _ Hf (live_upd_eq _ _ _ _ EF)) as E. injection E as ->. cbn [k_list]. destruct H1 as [H1|H1]; [discriminate|].
    assert (U : up s v (w_inst x) m d) by (split; auto; intros X; apply H2; right; exact X).
    apply filter_In. split; [apply (K0 v (w_inst x) m d q k); auto|]. cbn. destruct (Z.eqb_spec d (w_wd x)) as [->|]; auto.
    pose proof (up_unique _ _ _ _ _ _ _ J U U0w). subst v. destruct H2. left. reflexivity.
  - apply G; [exact EQ|fields; eauto|fields; auto].
  - apply G; [|fields; eauto|]; [intros; apply (INE (EClose (i_fd q) (IFile k))); split; discriminate|]. fields. intros fd k' Hf _. apply live_upd_none in Hf. apply Hf.
  - destruct (close_same (set_stack s k) (i_fd q)) as (E1 & E2 & E3 & e & E4 & Ne).
    assert (IN : inert e) by (split; intros; intros ->; discriminate). assert (IG : inert (EGoneInst i)) by (split; discriminate).
    apply G.
    + intros. unfold up at 1. cbn [emit set_insts s_trace]. rewrite E4. cbn [set_stack s_trace]. rewrite !inert_new, !inert_stop by auto. reflexivity.
    + fields. intros j p Hp _. apply live_upd_none in Hp. destruct Hp as [_ Hp]. eauto.
    + cbn [emit set_insts s_fds]. intros fd k' Hf _. apply close_fds in Hf. apply Hf.
  - subst a. destruct ST.
  - apply G; [exact EQ|fields; eauto|]. fields. intros fd k Hf _. apply open_inv in Hf. destruct Hf as [[_ Hf]|Hf]; [discriminate|auto].
  - apply G; [exact EQ|fields; eauto|]. fields. intros fd' k Hf _. apply live_upd_none in Hf. apply Hf.
  - apply G; [|fields; eauto|fields; auto]. intros. apply (INE (EDestroy dw)). split; discriminate.
Qed.

(* ---------------- instances and their descriptors ---------------- *)

Definition inited (s : state) : Prop :=
  (forall i q, live (s_insts s) i q -> In (EInit i (i_fd q)) (s_trace s)) /\
  (forall i fd fd', In (EInit i fd) (s_trace s) -> In (EInit i fd') (s_trace s) -> fd = fd') /\ (forall i fd, In (EInit i fd) (s_trace s) -> (i < length (s_insts s))%nat).

Lemma inited_micro a s0 s t : inited s -> micro a s0 s t -> inited t.
Proof.
  intros (H1 & H2 & H3) M.
  assert (G : (forall i fd, In (EInit i fd) (s_trace t) <-> In (EInit i fd) (s_trace s)) -> length (s_insts t) = length (s_insts s) ->
    (forall i q, live (s_insts t) i q -> exists p, live (s_insts s) i p /\ i_fd p = i_fd q) -> inited t).
  { intros G1 G2 G3. split; [|split].
    - intros i q L. destruct (G3 _ _ L) as (p & Lp & <-). apply G1. auto.
    - intros i fd fd' X Y. apply G1 in X, Y. eauto.
    - intros i fd X. apply G1 in X. rewrite G2. eauto. }
  assert (U0 : forall i q q', live (s_insts s) i q -> i_fd q' = i_fd q -> forall j p, live (upd (s_insts s) i (Some q')) j p -> exists r, live (s_insts s) j r /\ i_fd r = i_fd p).
  { intros i q q' L E j p Hp. apply live_upd in Hp. destruct Hp as [[<- Hp]|[_ Hp]]; [injection Hp as <-; rewrite E|]; eauto. }
  assert (EM : forall e, (forall i fd, e <> EInit i fd) -> forall i fd, In (EInit i fd) (e :: s_trace s) <-> In (EInit i fd) (s_trace s)).
  { intros e N i fd. cbn. split; [intros [X|X]; [destruct (N _ _ X)|auto]|auto]. }
  destruct M as [i q q' L E1 E2|i q q' NS L E1|w x x' L E1 E2 E3|e Pe|v l n m k Hn Hk|D NC|i q n l wd L Ea KA WD N1 N2|w x q L W LI WS|w x L W|i q k L LF|i q k L K NK|fd n Ea|Ea Es|fd L|dw Ea].
  all: try solve [apply G; fields; [reflexivity|apply upd_length|eauto]].
  all: try solve [apply G; fields; [reflexivity|reflexivity|eauto]].
  all: try solve [apply G; fields; [apply EM; try discriminate; intros i fd ->; discriminate|reflexivity|eauto]].
  - split; [|split]; fields.
    + intros i q Hi. apply live_app in Hi. destruct Hi as [[-> ->]|Hi]; [left; reflexivity|right; auto].
    + intros i fd fd' [X|X] [Y|Y]; [congruence| | |eauto]; [apply H3 in Y|apply H3 in X]; injection X as <- <- || injection Y as <- <-; lia.
    + intros i fd [X|X]; rewrite app_length; [injection X as <- <-; cbn; lia|]. apply H3 in X. lia.
  - destruct (close_same (set_stack s k) (i_fd q)) as (E1 & E2 & E3 & e & E4 & Ne). apply G; cbn [emit set_insts s_trace s_insts].
    + intros j fd. rewrite E4. cbn [In set_stack s_trace]. split; [intros [X|[X|X]]; [discriminate|subst e; discriminate|auto]|auto].
    + apply upd_length.
    + intros j p Hp. apply live_upd_none in Hp. destruct Hp as [_ Hp]. eauto.
Qed.

(* ---------------- the order of events ---------------- *)

(* a watch is stopped after it has been created *)
Fixpoint ordered (tr : list event) : Prop :=
  match tr with
  | [] => True
  | ENew w _ _ _ :: tr => (forall i n wd, ~ In (ENew w i n wd) tr) /\ (forall i wd, ~ In (EStop w i wd) tr) /\ ordered tr
  | EStop w i wd :: tr => (exists n, In (ENew w i n wd) tr) /\ ordered tr
  | _ :: tr => ordered tr
  end.

Lemma ordered_inert e tr : inert e -> ordered (e :: tr) <-> ordered tr.
Proof. intros [A B]. destruct e; try reflexivity; [destruct (A w i n wd eq_refl)|destruct (B w i wd eq_refl)]. Qed.
Lemma ordered_app a b : ordered (a ++ b) -> ordered b.
Proof. induction a as [|e a IH]; auto. cbn. destruct e; tauto. Qed.
Lemma ordered_stop tr w i wd : ordered tr -> In (EStop w i wd) tr -> exists n, In (ENew w i n wd) tr.
Proof.
  induction tr as [|e tr IH]; [intros _ []|]. intros O [->|H].
  - destruct O as [[n O] _]. exists n. right. exact O.
  - destruct IH as [n Hn]; [destruct e; cbn in O; tauto|auto|]. exists n. right. exact Hn.
Qed.
Lemma ordered_new tr w i n wd j m v : ordered tr -> In (ENew w i n wd) tr -> In (ENew w j m v) tr -> i = j /\ n = m /\ wd = v.
Proof.
  induction tr as [|e tr IH]; [intros _ []|]. intros O [->|H] [K|K].
  - injection K as <- <- <-. auto.
  - destruct O as [O _]. destruct (O _ _ _ K).
  - subst e. destruct O as [O _]. destruct (O _ _ _ H).
  - apply IH; auto. destruct e; cbn in O; tauto.
Qed.
(* who is registered has not been stopped *)
Lemma ordered_registered tr i wd w : ordered tr -> registered tr i wd = Some w -> (exists n, In (ENew w i n wd) tr) /\ forall j v, ~ In (EStop w j v) tr.
Proof.
  induction tr as [|e tr IH]; [discriminate|]. intros O R.
  assert (G : ordered tr -> registered tr i wd = Some w -> (forall j v, e <> EStop w j v) -> (exists n, In (ENew w i n wd) (e :: tr)) /\ forall j v, ~ In (EStop w j v) (e :: tr)).
  { intros O1 R1 N. destruct (IH O1 R1) as [[n Hn] Hs]. split; [exists n; right; auto|]. intros j v [X|X]; [destruct (N _ _ X)|destruct (Hs _ _ X)]. }
  destruct e; cbn [ordered registered] in *; try (apply G; [tauto|exact R|discriminate]).
  - destruct O as (O1 & O2 & O3). destruct (Nat.eqb_spec i i0) as [->|]; cbn [andb] in R; [|apply G; auto; discriminate].
    destruct (Z.eqb_spec wd wd0) as [->|]; [|apply G; auto; discriminate]. injection R as ->. split; [exists n; left; reflexivity|].
    intros j v [X|X]; [discriminate|destruct (O2 _ _ X)].
  - destruct O as [[n O1] O2].
    destruct (Nat.eqb i i0 && (wd =? wd0)) eqn:EE; [discriminate|]. apply G; auto. intros j v X. injection X as -> -> ->.
    destruct (IH O2 R) as [[m Hm] _]. destruct (ordered_new _ _ _ _ _ _ _ _ O2 O1 Hm) as (-> & _ & ->). rewrite Nat.eqb_refl, Z.eqb_refl in EE. discriminate.
Qed.

Record story (s : state) : Prop := {
  st_order : ordered (s_trace s);
  st_new : forall w i n wd, In (ENew w i n wd) (s_trace s) -> (w < length (s_watches s))%nat;
  st_stop : forall w i wd, In (EStop w i wd) (s_trace s) -> (w < length (s_watches s))%nat /\ (In (EDestroy w) (s_trace s) \/ forall x, live (s_watches s) w x -> w_refs x <= 0);
  st_live : forall w x, live (s_watches s) w x -> 0 <= w_wd x -> exists n, In (ENew w (w_inst x) n (w_wd x)) (s_trace s);
  st_done : forall w, (w < length (s_watches s))%nat -> (forall x, live (s_watches s) w x -> w_wd x < 0) -> exists i wd, In (EStop w i wd) (s_trace s) }.

Lemma story_micro a s0 s t : story s -> micro a s0 s t -> story t.
Proof.
  intros J M.
  assert (W0 : forall w x, live (s_watches s) w x -> exists y, live (s_watches s) w y /\ w_wd x = w_wd y /\ w_inst x = w_inst y /\ (w_refs y <= 0 -> w_refs x <= 0))
    by (intros w x L; exists x; auto).
  assert (W1 : forall w x, live (s_watches s) w x -> exists y, live (s_watches s) w y /\ w_wd x = w_wd y) by eauto.
  assert (G : (ordered (s_trace t) <-> ordered (s_trace s)) ->
    (forall w i n wd, In (ENew w i n wd) (s_trace t) <-> In (ENew w i n wd) (s_trace s)) -> (forall w i wd, In (EStop w i wd) (s_trace t) <-> In (EStop w i wd) (s_trace s)) ->
    (forall w, In (EDestroy w) (s_trace s) -> In (EDestroy w) (s_trace t)) -> (length (s_watches t) = length (s_watches s)) ->
    (forall w x, live (s_watches t) w x -> exists y, live (s_watches s) w y /\ w_wd x = w_wd y /\ w_inst x = w_inst y /\ (w_refs y <= 0 -> w_refs x <= 0)) ->
    (forall w x, live (s_watches s) w x -> exists y, live (s_watches t) w y /\ w_wd x = w_wd y) -> story t).
  { intros G1 G2 G3 G4 G5 G6 G7. constructor.
    - apply G1, J.
    - intros w i n wd H. apply G2 in H. rewrite G5. eapply st_new; eauto.
    - intros w i wd H. apply G3 in H. rewrite G5. destruct (st_stop _ J _ _ _ H) as [X [Y|Y]]; split; auto. right. intros x Lx. destruct (G6 _ _ Lx) as (y & Ly & _ & _ & R). eauto.
    - intros w x Lx D. destruct (G6 _ _ Lx) as (y & Ly & E1 & E2 & _). rewrite E1, E2. destruct (st_live _ J w y Ly) as [n Hn]; [lia|]. exists n. apply G2, Hn.
    - intros w H D. rewrite G5 in H. destruct (st_done _ J w H) as (i & wd & X); [|exists i, wd; apply G3, X].
      intros x Lx. destruct (G7 _ _ Lx) as (y & Ly & E). rewrite E. eauto. }
  assert (EM : forall e, inert e -> (ordered (e :: s_trace s) <-> ordered (s_trace s)) /\
    (forall w i n wd, In (ENew w i n wd) (e :: s_trace s) <-> In (ENew w i n wd) (s_trace s)) /\ (forall w i wd, In (EStop w i wd) (e :: s_trace s) <-> In (EStop w i wd) (s_trace s)) /\
    (forall w, In (EDestroy w) (s_trace s) -> In (EDestroy w) (e :: s_trace s))).
  { intros e N. split; [apply ordered_inert, N|]. split; [intros; apply inert_new, N|]. split; [intros; apply inert_stop, N|]. intros; right; auto. }
  destruct M as [i q q' L E1 E2|i q q' NS L E1|w x x' L E1 E2 E3|e Pe|v l n m k Hn Hk|D NC|i q n l wd L Ea KA WD N1 N2|w x q L W LI WS|w x L W|i q k L LF|i q k L K NK|fd n Ea|Ea Es|fd L|dw Ea].
  all: try solve [apply G; fields; auto; try reflexivity].
  all: try solve [match goal with |- story ?u => match u with context [?e :: s_trace _] => fail | _ => idtac end end; 
    match goal with |- story (emit ?v ?e) => assert (N : inert e) by (split; intros; try discriminate; intros ->; discriminate); destruct (EM _ N) as (? & ? & ? & ?); apply G; fields; auto; reflexivity end].
  - apply G; fields; auto; try reflexivity; [apply upd_length| |].
    + intros v y Hy. apply live_upd in Hy. destruct Hy as [[<- Hy]|[_ Hy]]; eauto. injection Hy as <-. exists x. split; auto. split; auto. split; auto. lia.
    + intros v y Hy. destruct (Nat.eq_dec w v) as [<-|N]; [|exists y; split; auto; apply live_upd_ne; auto].
      exists x'. rewrite (live_eq _ _ _ _ Hy L). split; [eapply live_upd_eq, L|auto].
  - (* new *)
    set (w0 := length (s_watches s)) in *. constructor; fields.
    + split; [|split; [|apply J]]; [intros j m v H; apply (st_new _ J) in H; lia|intros j v H; apply (st_stop _ J) in H; lia].
    + intros w j m v [H|H]; rewrite app_length; [injection H as <- <- <- <-; cbn; lia|]. apply (st_new _ J) in H. lia.
    + intros w j v [H|H]; [discriminate|]. destruct (st_stop _ J _ _ _ H) as [X Y]. rewrite app_length. split; [lia|]. destruct Y as [Y|Y]; [left; right; auto|right].
      intros x Hx. apply live_app in Hx. destruct Hx as [[-> _]|Hx]; [lia|eauto].
    + intros w x Hx Hd. apply live_app in Hx. destruct Hx as [[-> ->]|Hx]; [exists n; left; reflexivity|]. destruct (st_live _ J _ _ Hx Hd) as [m Hm]. exists m. right. exact Hm.
    + intros w Hw Hd. rewrite app_length in Hw. cbn in Hw. destruct (Nat.eq_dec w w0) as [->|N].
      * specialize (Hd _ (live_app_r _ _)). cbn in Hd. lia.
      * destruct (st_done _ J w) as (j & v & H); [lia| |exists j, v; right; exact H]. intros x Hx. apply Hd, live_app_l, Hx.
  - (* stop *)
    constructor; fields.
    + split; [|apply J]. apply (st_live _ J _ _ L W).
    + intros v j m d [H|H]; [discriminate|]. rewrite upd_length. eapply st_new; eauto.
    + intros v j d [H|H]; rewrite upd_length.
      * injection H as <- <- <-. split; [apply (live_lt _ _ _ L)|]. destruct WS as [WS|WS]; [left; right; exact WS|right]. intros y Hy.
        rewrite (live_eq _ _ _ _ Hy (live_upd_eq _ _ _ _ L)). exact WS.
      * destruct (st_stop _ J _ _ _ H) as [X Y]. split; auto. destruct Y as [Y|Y]; [left; right; auto|right]. intros y Hy. apply live_upd in Hy.
        destruct Hy as [[<- Hy]|[_ Hy]]; [injection Hy as <-; cbn; eauto|eauto].
    + intros v y Hy Hd. apply live_upd in Hy. destruct Hy as [[<- Hy]|[N Hy]]; [injection Hy as <-; cbn in Hd; lia|].
      destruct (st_live _ J _ _ Hy Hd) as [m Hm]. exists m. right. exact Hm.
    + intros v Hv Hd. rewrite upd_length in Hv. destruct (Nat.eq_dec w v) as [<-|N]; [eexists _, _; left; reflexivity|].
      destruct (st_done _ J v Hv) as (j & d & H); [|exists j, d; right; exact H]. intros y Hy. apply Hd, live_upd_ne; auto.
  - (* freed *)
    constructor; fields; try apply J.
    + intros v j m d H. rewrite upd_length. eapply st_new; eauto.
    + intros v j d H. rewrite upd_length. destruct (st_stop _ J _ _ _ H) as [X [Y|Y]]; split; auto. right. intros y Hy. apply live_upd_none in Hy. destruct Hy; eauto.
    + intros v y Hy Hd. apply live_upd_none in Hy. destruct Hy as [_ Hy]. apply (st_live _ J _ _ Hy Hd).
    + intros v Hv Hd. rewrite upd_length in Hv. apply (st_done _ J v Hv). intros y Hy. destruct (Nat.eq_dec w v) as [<-|N]; [rewrite (live_eq _ _ _ _ Hy L); exact W|].
      apply Hd, live_upd_ne; auto.
  - assert (N : inert (EClose (i_fd q) (IFile k))) by (split; discriminate). destruct (EM _ N) as (? & ? & ? & ?); apply G; fields; auto; reflexivity.
  - destruct (close_same (set_stack s k) (i_fd q)) as (E1 & E2 & E3 & e & E4 & Ne).
    assert (IN : inert e) by (split; intros; intros ->; discriminate). assert (IG : inert (EGoneInst i)) by (split; discriminate).
    apply G; cbn [emit set_insts s_trace s_insts s_watches s_fds]; rewrite ?E3, ?E4; cbn [set_stack s_trace s_watches]; auto.
    + rewrite !ordered_inert by auto. reflexivity.
    + intros. rewrite !inert_new by auto. reflexivity.
    + intros. rewrite !inert_stop by auto. reflexivity.
    + intros w H. right. right. exact H.
Qed.

(* ---------------- sources ---------------- *)

Definition no_bad (s : state) : Prop := forall sid, ~ In (EBadRemove sid) (s_trace s).
Lemma no_bad_micro a s0 s t : no_bad s -> micro a s0 s t -> no_bad t.
Proof.
  intros H M sid. specialize (H sid).
  assert (TE : forall e, e <> EBadRemove sid -> ~ In (EBadRemove sid) (e :: s_trace s)) by (intros e N [X|X]; auto).
  destruct M as [i q q' L E1 E2|i q q' NS L E1|w x x' L E1 E2 E3|e Pe|v l n m k Hn Hk|D NC|i q n l wd L Ea KA WD N1 N2|w x q L W LI WS|w x L W|i q k L LF|i q k L K NK|fd n Ea|Ea Es|fd L|dw Ea];
    fields; auto; try (apply TE; discriminate).
  - apply TE. intros ->. discriminate.
  - destruct (close_same (set_stack s k) (i_fd q)) as (_ & _ & _ & e & E4 & Ne). cbn [emit set_insts s_trace]. rewrite E4. intros [X|[X|X]]; [discriminate|subst|auto].
    unfold close in E4. destruct (nth_error (s_fds (set_stack s k)) (i_fd q)) as [[f|]|]; cbn in E4; injection E4; discriminate.
Qed.
