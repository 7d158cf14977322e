(* Properties of callbacks of inotify watches, for all sequences of actions of clients, kernel and main loop *)
From Verif Require Import Base InotifyModel InotifySpec InotifyParse InotifyProofs InotifyProofs2 InotifyProofs3 InotifyMicro InotifyFacts InotifyFacts2 InotifyProps CbModel CbSpec CbProofs.

(* ---------------- for the examples ---------------- *)
Definition carefulb (evs : list iev) (b : bstate) (x : baction) : bool :=
  match x with
  | BDo a =>
      fairb evs (b_base b) a &&
      match a with
      | ACall (CUnref w) | ACall (CDestroy w) => users (b_cbs b) w + 1 <=? owned (s_trace (b_base b)) w
      | ACall (CDisconnect w id) => forallb (fun o => match o with Some x => negb (Nat.eqb id (c_id x)) | None => true end) (b_cbs b)
      | _ => true
      end
  | BFree (Some c) => match nth_error (b_cbs b) c with Some (Some _) => true | _ => false end
  | _ => true
  end.
Fixpoint ballb (P : bstate -> baction -> bool) (b : bstate) (l : list baction) : bool :=
  match l with [] => true | x :: l => P b x && match bstep b x with Ok b => ballb P b l | Fail _ => true end end.
Lemma ballb_ok (P : bstate -> baction -> Prop) Q : (forall b x, Q b x = true -> P b x) -> forall l b, ballb Q b l = true -> ball P b l.
Proof. intros H. induction l as [|x l IH]; intros b K; cbn [ballb ball] in *; [exact Logic.I|]. apply andb_prop in K. destruct K as [K1 K2]. split; auto. destruct (bstep b x); auto. Qed.
Lemma carefulb_ok evs l b : forallb wfb evs = true -> ballb (carefulb evs) b l = true -> ball careful b l.
Proof.
  intros W. apply ballb_ok. clear - W. intros b [a|n| |[c|]] H; cbn in *; auto.
  - apply andb_prop in H. destruct H as (H & K). split.
    + assert (X : alongb (fairb evs) (b_base b) [a] = true) by (cbn; rewrite H; destruct (step (b_base b) a); reflexivity). apply (fairb_ok evs [a] (b_base b) W) in X. apply X.
    + destruct a as [[n| |w|w|w|w|w id]| | |sid r|fd n| |fd]; auto; try lia. intros c x T E. rewrite forallb_forall in K. specialize (K _ (nth_error_In _ _ T)). cbn in K. subst id. rewrite Nat.eqb_refl in K. discriminate.
  - destruct (nth_error (b_cbs b) c) as [[x|]|] eqn:E; try discriminate. exists x. exact E.
Qed.

Definition bdistinctb (b : bstate) (x : baction) : bool :=
  match x with BDo a => distinctb (b_base b) a | BNew n => distinctb (b_base b) (ACall (CNew n)) | _ => true end.
Lemma bdistinctb_ok l b : ballb bdistinctb b l = true -> ball bdistinct b l.
Proof.
  apply ballb_ok. clear. intros b x H.
  assert (X : forall a, distinctb (b_base b) a = true -> distinct (b_base b) a).
  { intros a K. assert (Y : alongb distinctb (b_base b) [a] = true) by (cbn; rewrite K; destruct (step (b_base b) a); reflexivity). apply distinctb_ok in Y. apply Y. }
  destruct x as [a|n| |c]; cbn [bdistinctb bdistinct] in *; auto.
Qed.

Lemma breach l b : ball careful bstart l -> brun bstart l = Ok b -> BI b /\ exists l', all_along fair start l' /\ run start l' = Ok (b_base b) /\ (ball bdistinct bstart l -> all_along distinct start l').
Proof.
  intros C R. destruct (brun_ok l bstart start_BI C) as (b' & l' & R' & B & X & Y & Z). rewrite R in R'. injection R' as <-. split; auto. exists l'. auto.
Qed.
Lemma bonce l b : ball careful bstart l -> brun bstart l = Ok b -> once (b_base b).
Proof. intros C R. destruct (breach l b C R) as (_ & l' & _ & X & _). eapply once_run; [apply once_start|exact X]. Qed.

(* ---------------- C92 ---------------- *)

(* Nothing goes wrong: no access to freed watches or callbacks. And what happens to the watches might as well be done by a client
   which uses watches, so that all which has been proved about watches is true. *)
Theorem C92_safe l : ball careful bstart l -> exists b l', brun bstart l = Ok b /\ all_along fair start l' /\ run start l' = Ok (b_base b).
Proof. intros C. destruct (brun_ok l bstart start_BI C) as (b & l' & R & B & X & Y & _). exists b, l'. auto. Qed.
Print Assumptions C92_safe.

(* A callback is created if the path leads to something. It has a watch of its own for that object with one handler. *)
Theorem C92_created l b n : ball careful bstart l -> brun bstart l = Ok b -> callable (s_stack (b_base b)) = true ->
  exists b', bstep b (BNew n) = Ok b' /\
    match n with
    | None => b_cbs b' = b_cbs b
    | Some n => exists x i wd, b_cbs b' = b_cbs b ++ [Some x] /\ In (ENew (c_watch x) i n wd) (s_trace (b_base b')) /\ nth_error (s_watches (b_base b)) (c_watch x) = None /\
        connected (s_trace (b_base b')) (c_watch x) = [c_id x] /\ owned (s_trace (b_base b')) (c_watch x) = 1
    end.
Proof.
  intros C R K. destruct (breach _ _ C R) as (B & _). destruct (CbProofs.new_ok b n B K) as (b' & l' & E & _ & _ & H). exists b'. cbn [bstep]. rewrite K. split; auto. destruct n as [n|]; [|apply H].
  destruct H as (w & id & i & wd & H1 & -> & H3 & H4 & H5 & H6 & _). exists (Cb (length (s_watches (b_base b))) id), i, wd. cbn [c_watch c_id]. split; auto. split; auto. split; [apply nth_error_None; lia|].
  destruct (fresh _ (length (s_watches (b_base b))) (bi_inv _ B) ltac:(lia)) as (O & CN). rewrite H5, H6, Nat.eqb_refl, O, CN. split; [reflexivity|lia].
Qed.
Print Assumptions C92_created.

(* As long as it is not freed, its function is connected and its watch is there *)
Theorem C92_connected l b c x : ball careful bstart l -> brun bstart l = Ok b -> there b c x ->
  In (c_id x) (connected (s_trace (b_base b)) (c_watch x)) /\ exists w, nth_error (s_watches (b_base b)) (c_watch x) = Some (Some w) /\ 1 <= w_refs w.
Proof.
  intros C R T. destruct (breach _ _ C R) as (B & _). split; [apply (bi_conn _ B c x T)|]. pose proof (users_in _ _ _ T). pose proof (bi_users _ B (c_watch x)).
  destruct (owned_live _ (c_watch x) (bi_inv _ B) ltac:(lia)) as (w & L). exists w. split; auto. apply (co_pos _ _ (proj1 (bi_inv _ B)) _ _ L).
Qed.
Print Assumptions C92_connected.

(* When an event is found to be for its watch, then its function is called with the event before the main loop goes on, unless it
   has been freed by then *)
Theorem C92_called l l2 b b2 c x n1 n2 i wd : ball careful bstart (l ++ l2) -> brun bstart l = Ok b -> brun b l2 = Ok b2 -> there b c x -> there b2 c x -> s_stack (b_base b2) = [] ->
  s_trace (b_base b2) = n1 ++ ELook i wd (Some (c_watch x)) :: n2 ++ s_trace (b_base b) -> exists e, e_wd e = wd /\ In (ECall (c_watch x) (c_id x) e) n1.
Proof.
  intros C R R2 T T2 K E. assert (R3 : brun bstart (l ++ l2) = Ok b2) by (rewrite brun_comp, R; exact R2). destruct (breach _ _ C R3) as (B2 & _). pose proof (bonce _ _ C R3) as (O & _).
  pose proof (ball_first _ _ _ _ C) as C1. destruct (breach _ _ C1 R) as (B & _). pose proof (bi_conn _ B c x T) as H. pose proof (bi_conn _ B2 c x T2) as H2. rewrite E in *.
  pose proof (connected_cids _ _ _ H) as M. set (tr := s_trace (b_base b)) in *.
  assert (E2 : n1 ++ ELook i wd (Some (c_watch x)) :: n2 ++ tr = (n1 ++ [ELook i wd (Some (c_watch x))]) ++ n2 ++ tr) by (rewrite <- app_assoc; reflexivity).
  assert (M2 : In (c_id x) (cids (n2 ++ tr))) by (rewrite cids_app; apply in_or_app; auto).
  rewrite E2 in O, H2. destruct (not_again _ _ _ _ O M2 H2) as (H3 & ND). rewrite <- E2 in *.
  destruct (inv_follows _ (bi_inv _ B2)) as (k & F & FI). rewrite (FI K) in F. destruct (told _ _ (c_watch x) (c_id x) F n1 (n2 ++ tr) i wd E H3) as [A|[A|(e & ids & q & A & _)]]; [exact A| |discriminate].
  destruct ND. apply in_or_app. auto.
Qed.
Print Assumptions C92_called.

(* Events for the object are found to be for its watch. Partial: the client has no two watches for one object at a time, and does not
   destroy the watch it gets as an argument. *)
Theorem C92_served_partial l b c x i n wd : ball careful bstart l -> ball bdistinct bstart l -> brun bstart l = Ok b -> there b c x ->
  In (ENew (c_watch x) i n wd) (s_trace (b_base b)) -> ~ In (EDestroy (c_watch x)) (s_trace (b_base b)) -> registered (s_trace (b_base b)) i wd = Some (c_watch x).
Proof.
  intros C D R T N ND. destruct (breach _ _ C R) as (B & l' & F & R' & DD). apply (C70_independent_partial l' (b_base b) (c_watch x) i n wd F (DD D) R' N); auto.
  pose proof (users_in _ _ _ T). pose proof (bi_users _ B (c_watch x)). lia.
Qed.
Print Assumptions C92_served_partial.

(* Its function is never called after it has been freed, even if it is freed by a function being called for the same event *)
Theorem C92_silent l l2 b b1 b2 c x new e : ball careful bstart (l ++ BFree (Some c) :: l2) -> brun bstart l = Ok b -> there b c x -> callable (s_stack (b_base b)) = true ->
  bstep b (BFree (Some c)) = Ok b1 -> brun b1 l2 = Ok b2 -> s_trace (b_base b2) = new ++ s_trace (b_base b1) -> ~ In (ECall (c_watch x) (c_id x) e) new.
Proof.
  intros C R T K E R2 G H. pose proof (ball_first _ _ _ _ C) as C1. destruct (breach _ _ C1 R) as (B & _). destruct (free_ok b c x B K T) as (b1' & l1 & E1 & _ & _ & FR). pose proof E as E'. cbn [bstep] in E'. rewrite K, E1 in E'. injection E' as ->.
  assert (R3 : brun bstart (l ++ BFree (Some c) :: l2) = Ok b2) by (rewrite brun_comp, R; cbn [bind brun]; rewrite E; exact R2).
  pose proof (bonce _ _ C R3) as (O & _). destruct (breach _ _ C R3) as (B2 & l' & F & R' & _).
  destruct FR as (w & id & T' & _ & _ & CN & _). unfold there in T, T'. rewrite T in T'. injection T' as ->. cbn [c_watch c_id] in *.
  apply in_split in H. destruct H as (n1 & n2 & ->). rewrite <- app_assoc in G. cbn [app] in G. pose proof (C87_connected _ _ n1 w id e (n2 ++ s_trace (b_base b1)) F R' G) as H.
  assert (O2 : NoDup (cids (n2 ++ s_trace (b_base b1)))).
  { rewrite G in O. rewrite cids_app in O. cbn [cids] in O. revert O. generalize (cids (n2 ++ s_trace (b_base b1))). clear. induction (cids n1) as [|y ys IH]; intros z O; cbn in O; auto. inversion O. auto. }
  assert (M : In id (cids (s_trace (b_base b1)))).
  { assert (X : In id (cids (s_trace (b_base b)))) by (apply (connected_cids _ w), (bi_conn _ B c (Cb w id) T)). pose proof (bonce _ _ C1 R).
    assert (C2 : ball careful b [BFree (Some c)]) by (cbn [ball careful]; split; [exists (Cb w id); exact T|rewrite E; exact Logic.I]).
    destruct (brun_ok [BFree (Some c)] b B C2) as (bb & ll & RR & _ & RB & FB & _). cbn [brun] in RR. rewrite E in RR. cbn [bind] in RR. injection RR as <-.
    assert (GR : exists evs, s_trace (b_base b1) = evs ++ s_trace (b_base b)).
    { destruct (breach _ _ C1 R) as (_ & la & FA & RA & _). apply (C87_grows la ll (b_base b) (b_base b1)); auto. eapply along_comp; eauto. }
    destruct GR as (evs & ->). rewrite cids_app. apply in_or_app. auto. }
  destruct (not_again _ _ _ _ O2 M H) as (H3 & _). rewrite CN, Nat.eqb_refl in H3. apply filter_In in H3. destruct H3 as (_ & H3). rewrite Nat.eqb_refl in H3. discriminate.
Qed.
Print Assumptions C92_silent.

(* Freeing a callback disconnects its function only. If somebody else has a reference to the watch, then events come as before. *)
Theorem C92_others l b b1 c x : ball careful bstart l -> brun bstart l = Ok b -> there b c x -> callable (s_stack (b_base b)) = true -> bstep b (BFree (Some c)) = Ok b1 ->
  (forall w id, In id (connected (s_trace (b_base b1)) w) <-> In id (connected (s_trace (b_base b)) w) /\ (w, id) <> (c_watch x, c_id x)) /\
  (forall w, owned (s_trace (b_base b1)) w = owned (s_trace (b_base b)) w - if Nat.eqb w (c_watch x) then 1 else 0) /\
  (1 <= owned (s_trace (b_base b1)) (c_watch x) -> forall i wd, registered (s_trace (b_base b1)) i wd = registered (s_trace (b_base b)) i wd).
Proof.
  intros C R T K E. destruct (breach _ _ C R) as (B & _). destruct (free_ok b c x B K T) as (b1' & l1 & E1 & _ & I1 & FR). cbn [bstep] in E. rewrite K in E. pose proof E as E2. rewrite E1 in E2. injection E2 as ->.
  destruct FR as (w & id & T' & _ & O & CN & _). unfold there in T, T'. rewrite T in T'. injection T' as ->. cbn [c_watch c_id] in *. split; [|split; [exact O|]].
  - intros v j. rewrite CN. destruct (Nat.eqb_spec v w) as [->|NE].
    + rewrite filter_In, negb_true_iff, Nat.eqb_neq. split; intros (X & Y); split; auto; congruence.
    + split; [intros X; split; auto; congruence|intros (X & _); exact X].
  - intros OW i wd. assert (OW2 : 2 <= owned (s_trace (b_base b)) w) by (rewrite O, Nat.eqb_refl in OW; lia).
    unfold callback_free in E. rewrite (get_live _ _ _ T) in E. cbn [bind c_watch c_id do_call] in E. destruct (owned_live _ w (bi_inv _ B) ltac:(lia)) as (y & L).
    pose proof (co_refs _ _ (proj1 (bi_inv _ B)) w) as RF. unfold wrefs, zero in RF. rewrite L in RF. pose proof (emits_nonneg w (s_stack (b_base b))).
    rewrite (get_live _ _ _ L) in E. cbn [bind] in E. rewrite (put_watch_live _ _ _ _ L) in E. cbn [bind] in E. unfold watch_unref in E.
    assert (L2 : live (upd (s_watches (b_base b)) w (Some (set_handlers y (filter (fun j => negb (Nat.eqb j id)) (w_handlers y))))) w (set_handlers y (filter (fun j => negb (Nat.eqb j id)) (w_handlers y)))) by (eapply live_upd_eq, L).
    cbn [emit set_watches s_watches] in E. rewrite (get_live _ _ _ L2) in E. cbn [bind] in E. unfold put_watch in E. cbn [s_watches] in E. rewrite (put_live _ _ _ _ L2) in E. cbn [bind set_handlers w_refs] in E.
    replace (w_refs y - 1 =? 0) with false in E by lia. cbn [bind] in E. rewrite (release_live _ _ _ T) in E. cbn [bind] in E. injection E as <-. reflexivity.
Qed.
Print Assumptions C92_others.

(* If the client uses callbacks only and has freed them all, then no watch, no instance and no file is left *)
Theorem C92_gone l b : ball careful bstart l -> Forall alone l -> brun bstart l = Ok b -> s_stack (b_base b) = [] -> (forall c x, ~ there b c x) ->
  (forall w x, nth_error (s_watches (b_base b)) w <> Some (Some x)) /\ (forall i, ~ exists_inst (s_trace (b_base b)) i) /\ s_srcs (b_base b) = [] /\
  forall fd k, nth_error (s_fds (b_base b)) fd <> Some (Some (IFile k)).
Proof.
  intros C A R K N. destruct (breach _ _ C R) as (B & l' & F & R' & _). assert (V : even b) by (eapply even_run; [apply start_BI| |exact C|exact A|exact R]; intros w; reflexivity).
  assert (O : forall w, owned (s_trace (b_base b)) w = 0) by (intros w; rewrite V; apply users_none; intros c x; apply N).
  assert (NI : forall i, ~ exists_inst (s_trace (b_base b)) i). { intros i X. destruct (proj1 (C71_instance _ _ F R' K) (ex_intro _ i X)) as (w & Y). rewrite O in Y. lia. }
  split; [|split; [exact NI|split; [apply (proj2 (C71_sources _ _ F R') K NI)|]]].
  - intros w x L. pose proof (co_pos _ _ (proj1 (bi_inv _ B)) _ _ L) as P. pose proof (co_refs _ _ (proj1 (bi_inv _ B)) w) as RF. unfold wrefs in RF. rewrite L, O, K in RF. cbn in RF. unfold zero in RF. lia.
  - intros fd k L. destruct (proj1 (C71_files _ _ fd F R' K) (ex_intro _ k L)) as (i & X & _). apply (NI i X).
Qed.
Print Assumptions C92_gone.

(* Two callbacks for one object: when one is freed the other is there but hears nothing any more *)
Theorem C92_independent_refuted : exists l b x n, ball careful bstart l /\ Forall alone l /\ brun bstart l = Ok b /\ s_stack (b_base b) = [] /\ there b 0 x /\
  In (ENew (c_watch x) 0 n 1) (s_trace (b_base b)) /\ ~ In (EDestroy (c_watch x)) (s_trace (b_base b)) /\ forall i wd, registered (s_trace (b_base b)) i wd <> Some (c_watch x).
Proof.
  exists [BNew (Some 5%nat); BNew (Some 5%nat); BFree (Some 1%nat)]. eexists. exists (Cb 0 1), 5%nat. split; [apply (carefulb_ok []); vm_compute; reflexivity|]. split; [vm_compute; repeat constructor|].
  split; [vm_compute; reflexivity|]. split; [reflexivity|]. split; [reflexivity|]. split; [cbn; auto 10|]. split; [cbn; intuition discriminate|].
  intros i wd. cbn. destruct (Nat.eqb i 0); cbn; [|discriminate]. destruct (wd =? 1); discriminate.
Qed.
Print Assumptions C92_independent_refuted.

(* ---------------- examples ---------------- *)
Definition ev5 : iev := IEv 1 2 0 (Some [65]).
(* callbacks for two objects, a path which leads nowhere *)
Definition ex_two : list baction := [BNew (Some 5%nat); BNew (Some 6%nat); BNew None].
(* an event of the first object is read *)
Definition ex_told : list baction := [BDo (ADispatch 1 (RData (enc [ev5]))); BDo AGo; BDo AGo; BDo AReturn; BDo AGo; BDo AGo; BDo AGo].
(* inside the function *)
Definition ex_self : list baction := ex_two ++ [BDo (ADispatch 1 (RData (enc [ev5]))); BDo AGo; BDo AGo].
(* the function frees its callback, another event comes *)
Definition ex_freed : list baction := [BDo AReturn; BDo AGo; BDo AGo; BDo AGo; BDo (ADispatch 1 (RData (enc [ev5]))); BDo AGo; BDo AGo; BDo AGo].
Definition ex_all : list baction := ex_self ++ BFree (Some 0%nat) :: ex_freed ++ [BFree (Some 1%nat); BDo AGo].

Example C92_example_safe : ball careful bstart ex_all /\ ball careful bstart (ex_two ++ ex_told) /\ Forall alone ex_all.
Proof. split; [apply (carefulb_ok [ev5]); vm_compute; reflexivity|]. split; [apply (carefulb_ok [ev5]); vm_compute; reflexivity|]. vm_compute. repeat constructor. Qed.
Definition base_of (r : res bstate) : bstate := match r with Ok b => b | Fail _ => bstart end.
Definition st_two : bstate := Eval vm_compute in base_of (brun bstart ex_two).
Definition st_told : bstate := Eval vm_compute in base_of (brun st_two ex_told).
Definition st_self : bstate := Eval vm_compute in base_of (brun bstart ex_self).
Definition st_free : bstate := Eval vm_compute in base_of (bstep st_self (BFree (Some 0%nat))).
Definition st_freed : bstate := Eval vm_compute in base_of (brun st_free ex_freed).
Definition st_all : bstate := Eval vm_compute in base_of (brun bstart ex_all).
Example C92_example_called : brun bstart ex_two = Ok st_two /\ brun st_two ex_told = Ok st_told /\ there st_two 0 (Cb 0 1) /\ there st_told 0 (Cb 0 1) /\ s_stack (b_base st_told) = [] /\ callable (s_stack (b_base st_two)) = true /\
  (exists n1 n2, s_trace (b_base st_told) = n1 ++ ELook 0 1 (Some 0%nat) :: n2 ++ s_trace (b_base st_two) /\ In (ECall 0 1 ev5) n1) /\
  In (ENew 0 0 5 1) (s_trace (b_base st_told)) /\ ~ In (EDestroy 0) (s_trace (b_base st_told)) /\ registered (s_trace (b_base st_told)) 0 1 = Some 0%nat.
Proof.
  split; [vm_compute; reflexivity|]. split; [vm_compute; reflexivity|]. split; [reflexivity|]. split; [reflexivity|]. split; [reflexivity|]. split; [reflexivity|].
  split; [exists [EReadEnd 0; EReturn; ECall 0 1 ev5], [ERead 0 (enc [ev5])]; split; [reflexivity|cbn; auto]|].
  cbn. split; [auto 20|]. split; [intuition discriminate|reflexivity].
Qed.
Example C92_example_distinct : ball bdistinct bstart (ex_two ++ ex_told).
Proof. apply bdistinctb_ok. vm_compute. reflexivity. Qed.
Example C92_example_silent : brun bstart ex_self = Ok st_self /\ there st_self 0 (Cb 0 1) /\ callable (s_stack (b_base st_self)) = true /\ bstep st_self (BFree (Some 0%nat)) = Ok st_free /\ brun st_free ex_freed = Ok st_freed /\
  exists new, s_trace (b_base st_freed) = new ++ s_trace (b_base st_free) /\ In (ERead 0 (enc [ev5])) new.
Proof.
  split; [vm_compute; reflexivity|]. split; [reflexivity|]. split; [reflexivity|]. split; [vm_compute; reflexivity|]. split; [vm_compute; reflexivity|].
  exists [EReadEnd 0; ELook 0 1 None; ERead 0 (enc [ev5]); EReadEnd 0; EGone 0; EStop 0 0 1; EReturn]. split; [reflexivity|]. cbn. auto.
Qed.
Example C92_example_gone : brun bstart ex_all = Ok st_all /\ s_stack (b_base st_all) = [] /\ b_cbs st_all = [None; None] /\ s_watches (b_base st_all) = [None; None] /\ s_srcs (b_base st_all) = [].
Proof. split; [vm_compute; reflexivity|]. auto. Qed.
Definition ex_others : list baction := ex_self ++ [BDo (ACall (CRef 0)); BDo (ACall (CConnect 0))].
Definition st_others : bstate := Eval vm_compute in base_of (brun bstart ex_others).
Definition st_others1 : bstate := Eval vm_compute in base_of (bstep st_others (BFree (Some 0%nat))).
Example C92_example_others : ball careful bstart ex_others /\ brun bstart ex_others = Ok st_others /\ there st_others 0 (Cb 0 1) /\ callable (s_stack (b_base st_others)) = true /\ bstep st_others (BFree (Some 0%nat)) = Ok st_others1 /\
  connected (s_trace (b_base st_others)) 0 = [1%nat; 3%nat] /\ connected (s_trace (b_base st_others1)) 0 = [3%nat] /\ owned (s_trace (b_base st_others1)) 0 = 1 /\ registered (s_trace (b_base st_others1)) 0 1 = Some 0%nat.
Proof. split; [apply (carefulb_ok [ev5]); vm_compute; reflexivity|]. split; [vm_compute; reflexivity|]. split; [reflexivity|]. split; [reflexivity|]. split; [vm_compute; reflexivity|]. auto 10. Qed.
