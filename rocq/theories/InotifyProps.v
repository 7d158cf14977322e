(* Properties of the inotify watches, for all sequences of actions of clients, kernel and main loop *)
From Verif Require Import Base InotifyModel InotifySpec InotifyParse InotifyProofs InotifyProofs2 InotifyProofs3 InotifyMicro InotifyFacts InotifyFacts2.

(* ---------------- for the examples ---------------- *)

Definition enc_name (o : option (list Z)) : list Z := match o with None => [] | Some t => t ++ repeat 0 (Z.to_nat (16 - len t mod 16)) end.
Fixpoint enc (l : list iev) : list Z :=
  match l with
  | [] => []
  | e :: l => le32 (e_wd e mod 2^32) ++ le32 (e_mask e) ++ le32 (e_cookie e) ++ le32 (len (enc_name (e_name e))) ++ enc_name (e_name e) ++ enc l
  end.
Definition wfb (e : iev) : bool :=
  (-2^31 <=? e_wd e) && (e_wd e <? 2^31) && (0 <=? e_mask e) && (e_mask e <? 2^32) && (0 <=? e_cookie e) && (e_cookie e <? 2^32) &&
  match e_name e with None => true | Some t => forallb (fun c => (0 <? c) && (c <? 256)) t && (len t <? 2^16) end.
Lemma enc_ok l : forallb wfb l = true -> encodes l (enc l).
Proof.
  induction l as [|e l IH]; intros H; cbn [forallb enc] in *; [constructor|]. apply andb_prop in H. destruct H as [H HL]. unfold wfb in H.
  repeat (apply andb_prop in H; let X := fresh "X" in destruct H as [H X]).
  constructor; try (unfold in_s32, in_u32; lia); [|auto]. destruct (e_name e) as [t|]; cbn [enc_name name_field]; auto. apply andb_prop in X. destruct X as [XA XB].
  split.
  - apply Forall_forall. intros c Hc. rewrite forallb_forall in XA. specialize (XA _ Hc). lia.
  - pose proof (Z.mod_pos_bound (len t) 16 ltac:(lia)) as B. exists (Z.to_nat (16 - len t mod 16)). split; [lia|]. split; auto.
    unfold len in *. rewrite app_length, repeat_length. rewrite Nat2Z.inj_add, Z2Nat.id by lia. split; [|lia].
    replace (Z.of_nat (length t) + (16 - Z.of_nat (length t) mod 16)) with (16 * (Z.of_nat (length t) / 16) + 16); [|pose proof (Z.div_mod (Z.of_nat (length t)) 16 ltac:(lia)); lia].
    replace (16 * (Z.of_nat (length t) / 16) + 16) with (0 + (Z.of_nat (length t) / 16 + 1) * 16) by lia. rewrite Z.mod_add by lia. reflexivity.
Qed.

Fixpoint list_eqb (a b : list Z) : bool := match a, b with [], [] => true | x :: a, y :: b => (x =? y) && list_eqb a b | _, _ => false end.
Lemma list_eqb_eq a : forall b, list_eqb a b = true -> a = b.
Proof.
  induction a as [|x a IH]; intros [|y b] H; cbn in H; try discriminate; auto. apply andb_prop in H. destruct H as [H K]. apply Z.eqb_eq in H. subst. f_equal. auto.
Qed.
Definition usableb (s : state) (w : nat) : bool := (1 <=? owned (s_trace s) w) || existsb (fun f => match f with FHandler v _ => Nat.eqb w v | _ => false end) (s_stack s).
(* all reads return the events evs *)
Definition fairb (evs : list iev) (s : state) (a : action) : bool :=
  match a with
  | ACall (CRef w) | ACall (CConnect w) | ACall (CDisconnect w _) => usableb s w
  | ACall (CUnref w) | ACall (CDestroy w) => 1 <=? owned (s_trace s) w
  | ADispatch _ (RData d) => list_eqb d (enc evs)
  | _ => true
  end.
Fixpoint alongb (P : state -> action -> bool) (s : state) (l : list action) : bool :=
  match l with [] => true | a :: l => P s a && match step s a with Ok s => alongb P s l | Fail _ => true end end.
Lemma alongb_ok (P : state -> action -> Prop) Q : (forall s a, Q s a = true -> P s a) -> forall l s, alongb Q s l = true -> all_along P s l.
Proof.
  intros H. induction l as [|a l IH]; intros s K; cbn [alongb all_along] in *; [exact I|]. apply andb_prop in K. destruct K as [K1 K2]. split; auto.
  destruct (step s a); auto.
Qed.
Lemma fairb_ok evs l s : forallb wfb evs = true -> alongb (fairb evs) s l = true -> all_along fair s l.
Proof.
  intros W. apply alongb_ok. clear - W. intros s a H.
  assert (U : forall w, usableb s w = true -> usable s w).
  { intros w K. unfold usableb in K. apply orb_prop in K. destruct K as [K|K]; [left; lia|right]. apply existsb_exists in K. destruct K as (f & F & K). destruct f; try discriminate.
    apply Nat.eqb_eq in K. subst. eauto. }
  destruct a as [[n| |w|w|w|w|w id]| | |sid [| |d]|fd n| |fd]; cbn in *; auto; try lia. apply list_eqb_eq in H. subst. exists evs. apply enc_ok, W.
Qed.
Definition distinctb (s : state) (a : action) : bool :=
  match a with
  | ACall (CNew (Some n)) =>
      forallb (fun e => match e with ENew w i m wd => negb (Nat.eqb m n) || existsb (fun f => match f with EStop v j u => Nat.eqb w v && Nat.eqb i j && (wd =? u) | _ => false end) (s_trace s) | _ => true end) (s_trace s)
  | _ => true
  end.
Lemma distinctb_ok l s : alongb distinctb s l = true -> all_along distinct s l.
Proof.
  apply alongb_ok. clear. intros s a H. destruct a as [[[n|]| |w|w|w|w|w id]| | |sid r|fd n| |fd]; cbn in *; auto. intros w i wd K.
  rewrite forallb_forall in H. specialize (H _ K). cbn in H. rewrite Nat.eqb_refl in H. cbn in H. apply existsb_exists in H. destruct H as (e & E & H). destruct e; try discriminate.
  apply andb_prop in H. destruct H as [H H3]. apply andb_prop in H. destruct H as [H1 H2]. apply Nat.eqb_eq in H1, H2. apply Z.eqb_eq in H3. subst. exact E.
Qed.
Definition quietb (s : state) (a : action) : bool := match a with AOpen => forallb (fun f => match f with FClose _ => false | _ => true end) (s_stack s) | _ => true end.
Lemma quietb_ok l s : alongb quietb s l = true -> all_along quiet s l.
Proof.
  apply alongb_ok. clear. intros s a H. destruct a; cbn in *; auto. intros i K. rewrite forallb_forall in H. specialize (H _ K). discriminate.
Qed.
Definition soundb (a : action) : bool := match a with ADispatch _ RHup | ADispatch _ RError => false | _ => true end.
Lemma soundb_ok l : forallb soundb l = true -> Forall sound l.
Proof. intros H. apply Forall_forall. intros a K. rewrite forallb_forall in H. specialize (H _ K). destruct a as [| | |sid [| |d]| | |]; cbn in *; auto; discriminate. Qed.

(* ---------------- general ---------------- *)

Lemma reach l s : all_along fair start l -> run start l = Ok s -> inv s.
Proof. intros F R. destruct (run_ok l start inv_start F) as (s' & R' & I). rewrite R in R'. injection R' as <-. exact I. Qed.

Lemma along_true (P : state -> Prop) : P start -> (forall a s0 s t, P s -> micro a s0 s t -> P t) -> forall l s, all_along fair start l -> run start l = Ok s -> P s.
Proof.
  intros H0 M l s F R. assert (T : forall l s, all_along (fun _ _ => True) s l) by (induction l0; cbn; intros; auto; split; auto; destruct (step s0 a); auto).
  eapply (along P (fun _ _ => True)); [|exact inv_start|exact H0|exact F|apply T|exact R]. eauto.
Qed.
Lemma along_sound l : forall s, Forall sound l -> all_along (fun _ a => sound a) s l.
Proof. induction l as [|a l IH]; intros s H; cbn; auto. inversion H. split; auto. destruct (step s a); auto. Qed.
Lemma along_and (P Q : state -> action -> Prop) l : forall s, all_along P s l -> all_along Q s l -> all_along (fun s a => P s a /\ Q s a) s l.
Proof. induction l as [|a l IH]; intros s H K; cbn in *; auto. destruct H, K. split; auto. destruct (step s a); auto. Qed.

Lemma story_start : story start.
Proof. constructor; cbn; try tauto; intros w; try lia. intros x Hx. unfold live in Hx. cbn in Hx. destruct w; discriminate. Qed.
Lemma served_start : served start.
Proof.
  assert (NL : forall A w (x : A), ~ live [] w x) by (intros A w x H; unfold live in H; destruct w; discriminate).
  constructor; cbn; try tauto; try (intros; exfalso; eapply NL; eassumption). intros w i n wd [H _]. destruct H.
Qed.
Lemma inited_start : inited start.
Proof. split; [|split]; cbn; try tauto. intros i q H. unfold live in H. destruct i; discriminate. Qed.

Lemma run_app l l2 s : run s (l ++ l2) = do t <- run s l; run t l2.
Proof. revert s. induction l as [|a l IH]; intros s; cbn [run app bind]; auto. destruct (step s a); cbn [bind]; auto. Qed.
Lemma all_along_app P l l2 s : all_along P s (l ++ l2) -> all_along P s l.
Proof. revert s. induction l as [|a l IH]; intros s H; cbn in *; auto. destruct H as [H K]. split; auto. destruct (step s a); auto. Qed.
Lemma all_along_rest P l l2 s t : all_along P s (l ++ l2) -> run s l = Ok t -> all_along P t l2.
Proof.
  revert s. induction l as [|a l IH]; intros s H R; cbn [run app all_along] in *; [injection R as <-; auto|]. destruct H as [_ H]. destruct (step s a); [|discriminate]. eauto.
Qed.
Lemma micros_grow a s0 s t : micros a s0 s t -> exists new, s_trace t = new ++ s_trace s.
Proof.
  induction 1 as [|s t u M MS [n E]]; [exists []; reflexivity|]. rewrite E.
  assert (X : exists m, s_trace t = m ++ s_trace s); [|destruct X as [m ->]; exists (n ++ m); rewrite app_assoc; reflexivity].
  destruct M as [i q q' L E1 E2|i q q' NS L E1|w x x' L E1 E2 E3|e Pe|v l n' m k Hn Hk|D NC|i q n' l wd L Ea KA WD N1 N2|w x q L W LI WS|w x L W|i q k L LF|i q k L K NK|fd n' Ea|Ea Es|fd L|dw Ea];
    fields; try solve [exists []; reflexivity|eexists [_]; reflexivity].
  destruct (close_same (set_stack s k) (i_fd q)) as (_ & _ & _ & e & E4 & _). cbn [emit set_insts s_trace]. rewrite E4. eexists [_; _]. reflexivity.
Qed.

(* ---------------- C69: delivery ---------------- *)

(* Nothing goes wrong (no access outside the buffer, none to freed memory), and the events of each read
   are delivered one after another, each once, to the watch registered for it at that moment. Partial:
   the kernel writes complete events only. *)
Theorem C69_delivery_partial l : all_along fair start l ->
  exists s c, run start l = Ok s /\ follows (s_trace s) c /\ (s_stack s = [] -> c = Idle).
Proof. intros F. destruct (run_ok l start inv_start F) as (s & R & I). destruct (inv_follows _ I) as (c & H). exists s, c. split; [exact R|exact H]. Qed.
Print Assumptions C69_delivery_partial.

(* The read comes to an end when the handlers return, and then all has been delivered *)
Theorem C69_finish_partial l s : all_along fair start l -> run start l = Ok s ->
  exists l' s', Forall (fun a => a = AGo \/ a = AReturn) l' /\ run s l' = Ok s' /\ s_stack s' = [] /\ follows (s_trace s') Idle.
Proof.
  intros F R. destruct (finish _ (reach _ _ F R)) as (l' & s' & A & B & I & K). exists l', s'. repeat split; auto.
  destruct (inv_follows _ I) as (c & X & Y). rewrite (Y K) in X. exact X.
Qed.
Print Assumptions C69_finish_partial.

(* two watches, a handler destroys both of them *)
Definition ev1 : iev := IEv 1 2 0 (Some [97; 98]).
Definition ev2 : iev := IEv 2 4 7 None.
Definition ev3 : iev := IEv (-1) 16384 0 None.
Definition calls (tr : list event) : list event := filter (fun e => match e with ELook _ _ _ | ECall _ _ _ | EReadEnd _ => true | _ => false end) (rev tr).
Definition busy : list action :=
  [ACall (CNew (Some 5%nat)); ACall (CNew (Some 6%nat)); ACall (CConnect 0); ACall (CConnect 0); ACall (CConnect 1); ADispatch 1 (RData (enc [ev1; ev2; ev3; ev1]));
   AGo; AGo; AReturn; AGo; ACall (CDestroy 0); AReturn; AGo; AGo; AGo; AReturn; AGo; AGo; AGo].
Example C69_example : exists s, all_along fair start busy /\ run start busy = Ok s /\
  calls (s_trace s) = [ELook 0 1 (Some 0%nat); ECall 0 1 ev1; ECall 0 2 ev1; ELook 0 2 (Some 1%nat); ECall 1 3 ev2; ELook 0 (-1) None; ELook 0 1 None].
Proof. eexists. split; [apply (fairb_ok [ev1; ev2; ev3; ev1]); vm_compute; reflexivity|]. split; vm_compute; reflexivity. Qed.
(* the last watch destroyed in its handler: the file is closed after the read *)
Definition suicide : list action :=
  [ACall (CNew (Some 5%nat)); ACall (CConnect 0); ADispatch 1 (RData (enc [ev1; ev1])); AGo; AGo; ACall (CDestroy 0); AReturn; AGo; AGo; AGo; AGo; AGo].
Example C69_example2 : exists s, all_along fair start suicide /\ run start suicide = Ok s /\ s_stack s = [] /\
  rev (s_trace s) = [EInit 0 0; ESource 1 0; ENew 0 0 5 1; EConnect 0 1; ERead 0 (enc [ev1; ev1]); ELook 0 1 (Some 0%nat); ECall 0 1 ev1; EDestroy 0; EStop 0 0 1; EReturn; EGone 0;
    ELook 0 1 None; EReadEnd 0; EUnsource 1; EClose 0 (IFile (KFile 1 [])); EBadClose 0; EGoneInst 0].
Proof. eexists. split; [apply (fairb_ok [ev1; ev1]); vm_compute; reflexivity|]. split; [vm_compute; reflexivity|]. split; vm_compute; reflexivity. Qed.

(* Of incomplete data the header is read which is not there: here behind the end of the buffer *)
Theorem C69_incomplete_refuted : exists n d, len d <= 272 /\ run start [ACall (CNew (Some n)); ADispatch 1 (RData d); AGo; AGo; AGo] = Fail OobRead.
Proof. exists 5%nat, (le32 1 ++ le32 2 ++ le32 0 ++ le32 248 ++ repeat 0 256). split; [vm_compute; discriminate|]. vm_compute. reflexivity. Qed.
Print Assumptions C69_incomplete_refuted.

(* ---------------- C70: independence ---------------- *)

(* Two watches of the same object have the same descriptor. Destroying the second one stops both: the
   first one is there but its events are for nobody, and the kernel does not watch the object. *)
Theorem C70_independent_refuted : exists l s fd, all_along fair start l /\ run start l = Ok s /\ s_stack s = [] /\
  In (ENew 0 0 5 1) (s_trace s) /\ owned (s_trace s) 0 = 1 /\ ~ In (EDestroy 0) (s_trace s) /\ ~ In (EUnref 0) (s_trace s) /\
  registered (s_trace s) 0 1 = None /\ In (EInit 0 fd) (s_trace s) /\ nth_error (s_fds s) fd = Some (Some (IFile (KFile 1 []))).
Proof.
  exists [ACall (CNew (Some 5%nat)); ACall (CNew (Some 5%nat)); ACall (CDestroy 1)]. eexists. exists 0%nat.
  split; [apply (fairb_ok []); vm_compute; reflexivity|]. split; [vm_compute; reflexivity|]. cbn.
  repeat split; try tauto; intuition discriminate.
Qed.
Print Assumptions C70_independent_refuted.

(* A watch which has not been destroyed and to which there is a reference gets the events with its
   descriptor (see C69), whatever happens to other watches. Partial: only if the client does not create
   two watches of the same object. *)
Theorem C70_independent_partial l s w i n wd : all_along fair start l -> all_along distinct start l -> run start l = Ok s ->
  In (ENew w i n wd) (s_trace s) -> 1 <= owned (s_trace s) w -> ~ In (EDestroy w) (s_trace s) -> registered (s_trace s) i wd = Some w.
Proof.
  intros F D R N O ND. pose proof (reach _ _ F R) as I. pose proof (along_true story story_start story_micro _ _ F R) as ST.
  assert (SV : served s) by (eapply (along served distinct); [exact served_micro|exact inv_start|exact served_start|exact F|exact D|exact R]).
  apply (j_up _ SV w i n wd). split; auto. intros X. destruct (st_stop _ ST _ _ _ X) as [_ [Y|Y]]; [auto|].
  pose proof (co_refs _ _ (proj1 I) w) as RF. pose proof (emits_nonneg w (s_stack s)). unfold zero in RF. unfold wrefs in RF.
  destruct (nth_error (s_watches s) w) as [[x|]|] eqn:E; try lia. specialize (Y x E). pose proof (co_pos _ _ (proj1 I) _ _ E). lia.
Qed.
Print Assumptions C70_independent_partial.

(* And the kernel watches the object, unless it has been deleted *)
Theorem C70_kernel_partial l s w i n wd : all_along fair start l -> all_along distinct start l -> (forall fd m, ~ In (ADrop fd m) l) -> run start l = Ok s ->
  In (ENew w i n wd) (s_trace s) -> 1 <= owned (s_trace s) w -> ~ In (EDestroy w) (s_trace s) ->
  exists fd k, In (EInit i fd) (s_trace s) /\ nth_error (s_fds s) fd = Some (Some (IFile k)) /\ In (n, wd) (k_list k).
Proof.
  intros F D ND R N O NDS. pose proof (reach _ _ F R) as I. pose proof (C70_independent_partial _ _ _ _ _ _ F D R N O NDS) as RG.
  pose proof (along_true story story_start story_micro _ _ F R) as ST. pose proof (along_true inited inited_start inited_micro _ _ F R) as IN.
  assert (SL : forall l s, (forall fd m, ~ In (ADrop fd m) l) -> all_along (fun _ a => stays a) s l).
  { clear. induction l as [|a l IH]; intros s H; cbn; auto. split; [destruct a; cbn; auto; destruct (H fd n); left; auto|]. destruct (step s a); auto. apply IH. intros fd m K. eapply H. right. exact K. }
  assert (SV : listed s).
  { eapply (along listed (fun s a => distinct s a /\ stays a)); [exact listed_micro|exact inv_start| |exact F|apply along_and; [exact D|apply SL, ND]|exact R].
    split; [exact served_start|]. intros v j m d q k [X _]. destruct X. }
  destruct I as [C I]. pose proof (co_refs _ _ C w) as RF. unfold zero in RF.
  assert (NW : nlive (s_watches s) <> 0).
  { intros Z0. pose proof (nlive_0 _ Z0 w) as X. unfold wrefs in RF. pose proof (emits_nonneg w (s_stack s)). destruct (nth_error (s_watches s) w) as [[x|]|] eqn:E; try lia. destruct (X x E). }
  destruct I as [I|[(j & q & I)|(j & q & A & Q)]]; [destruct I as (_ & _ & I & _); lia|destruct I as (_ & _ & _ & I & _); lia|].
  destruct (ordered_registered _ _ _ _ (st_order _ ST) RG) as [_ NS]. destruct SV as [SV LS].
  assert (U : up s w i n wd) by (split; [exact N|apply NS]). destruct (j_up _ SV _ _ _ _ U) as (_ & x & Lx & _ & Ei).
  pose proof (al_w _ _ _ _ A _ _ Lx) as Ej. rewrite Ei in Ej. subst j. destruct (al_fd _ _ _ _ A) as (k & Lk & _).
  exists (i_fd q), k. split; [apply (proj1 IN), A|]. split; [exact Lk|]. eapply LS; eauto. apply A.
Qed.
Print Assumptions C70_kernel_partial.

Example C70_example : exists s, all_along fair start busy /\ all_along distinct start busy /\ run start busy = Ok s /\ In (ENew 1 0 6 2) (s_trace s) /\
  1 <= owned (s_trace s) 1 /\ ~ In (EDestroy 1) (s_trace s).
Proof.
  eexists. split; [apply (fairb_ok [ev1; ev2; ev3; ev1]); vm_compute; reflexivity|]. split; [apply distinctb_ok; vm_compute; reflexivity|]. split; [vm_compute; reflexivity|].
  cbn [s_trace]. split; [cbn; tauto|]. split; [vm_compute; discriminate|]. cbn. intuition discriminate.
Qed.

(* ---------------- C71: lifetime ---------------- *)

Lemma live_exists s i q : inv s -> live (s_insts s) i q -> exists_inst (s_trace s) i.
Proof.
  intros [C _] L. split; [apply (co_init _ _ C), (live_lt _ _ _ L)|]. intros G. apply (co_gone _ _ C) in G. unfold live in L. congruence.
Qed.
Lemma exists_live s i : inv s -> exists_inst (s_trace s) i -> exists q, live (s_insts s) i q.
Proof.
  intros [C _] [H G]. apply (co_init _ _ C) in H. destruct (nth_error (s_insts s) i) as [[q|]|] eqn:E; [exists q; exact E|destruct G; apply (co_gone _ _ C), E|apply nth_error_None in E; lia].
Qed.

(* There is never more than one instance *)
Theorem C71_one l s i j : all_along fair start l -> run start l = Ok s -> exists_inst (s_trace s) i -> exists_inst (s_trace s) j -> i = j.
Proof.
  intros F R Hi Hj. pose proof (reach _ _ F R) as I. apply (exists_live _ _ I) in Hi, Hj. destruct Hi as [q Hi]. destruct Hj as [p Hj].
  destruct I as [C [I|[(z & x & I)|(z & x & A & _)]]].
  - destruct I as (_ & I & _). destruct (nlive_0 _ I _ _ Hi).
  - destruct I as (_ & _ & I & _). rewrite (I _ _ Hi), (I _ _ Hj). reflexivity.
  - rewrite (al_one _ _ _ _ A _ _ Hi), (al_one _ _ _ _ A _ _ Hj). reflexivity.
Qed.
Print Assumptions C71_one.

(* Outside of calls it is there if and only if the client has a reference to some watch *)
Theorem C71_instance l s : all_along fair start l -> run start l = Ok s -> s_stack s = [] ->
  ((exists i, exists_inst (s_trace s) i) <-> exists w, 1 <= owned (s_trace s) w).
Proof.
  intros F R K. pose proof (reach _ _ F R) as I. pose proof I as [C [H|[(z & x & H)|(z & x & A & Q)]]].
  - destruct H as (_ & NI & NW & _). split.
    + intros [i Hi]. apply (exists_live _ _ I) in Hi. destruct Hi as [q Hi]. destruct (nlive_0 _ NI _ _ Hi).
    + intros [w Hw]. pose proof (co_refs _ _ C w) as RF. rewrite K in RF. unfold zero in RF. cbn [emits] in RF. unfold wrefs in RF.
      destruct (nth_error (s_watches s) w) as [[y|]|] eqn:E; try lia. destruct (nlive_0 _ NW _ _ E).
  - destruct H as (_ & _ & _ & _ & _ & [K0|(sid & ok & K0)] & _); rewrite K0 in K; discriminate.
  - split; [intros _|intros _; exists z; eapply live_exists; [exact I|apply A]]. pose proof (al_refs _ _ _ _ A) as RF. rewrite K in RF. cbn [loops] in RF.
    destruct (nlive_some (s_watches s)) as (w & y & L); [lia|]. exists w. pose proof (co_refs _ _ C w) as RW. rewrite K in RW. unfold zero in RW. cbn [emits] in RW.
    unfold wrefs in RW. unfold live in L. rewrite L in RW. pose proof (co_pos _ _ C _ _ L). lia.
Qed.
Print Assumptions C71_instance.

(* At any time: it is there as long as there is a reference *)
Theorem C71_stays l s w : all_along fair start l -> run start l = Ok s -> 1 <= owned (s_trace s) w -> exists i, exists_inst (s_trace s) i.
Proof.
  intros F R O. pose proof (reach _ _ F R) as I. pose proof I as [C H].
  assert (NW : nlive (s_watches s) <> 0).
  { intros Z0. pose proof (nlive_0 _ Z0 w) as X. pose proof (co_refs _ _ C w) as RF. unfold zero, wrefs in RF. pose proof (emits_nonneg w (s_stack s)).
    destruct (nth_error (s_watches s) w) as [[x|]|] eqn:E; try lia. destruct (X x E). }
  destruct H as [H|[(z & x & H)|(z & x & A & Q)]]; [destruct H as (_ & _ & H & _); lia|destruct H as (_ & _ & _ & H & _); lia|].
  exists z. eapply live_exists; [exact I|apply A].
Qed.
Print Assumptions C71_stays.

(* The open files of inotify are those of the instances *)
Theorem C71_files l s fd : all_along fair start l -> run start l = Ok s -> s_stack s = [] ->
  ((exists k, nth_error (s_fds s) fd = Some (Some (IFile k))) <-> exists i, exists_inst (s_trace s) i /\ In (EInit i fd) (s_trace s)).
Proof.
  intros F R K. pose proof (reach _ _ F R) as I. pose proof (along_true inited inited_start inited_micro _ _ F R) as IN.
  assert (NL : no_leak s).
  { eapply along_true; [|exact no_leak_micro|exact F|exact R]. intros z [k H]. unfold live in H. destruct z; discriminate. }
  split.
  - intros H. destruct (NL fd H) as (i & q & L & <-). exists i. split; [eapply live_exists; eauto|apply (proj1 IN), L].
  - intros (i & E & H). destruct (exists_live _ _ I E) as [q L]. pose proof (proj1 (proj2 IN) _ _ _ H (proj1 IN _ _ L)) as ->.
    destruct I as [C [X|[(z & x & X)|(z & x & A & Q)]]].
    + destruct X as (_ & X & _). destruct (nlive_0 _ X _ _ L).
    + destruct X as (_ & _ & _ & _ & _ & [K0|(sid & ok & K0)] & _); rewrite K0 in K; discriminate.
    + pose proof (al_one _ _ _ _ A _ _ L). subst z. rewrite (live_eq _ _ _ _ L (al_live _ _ _ _ A)). destruct (al_fd _ _ _ _ A) as (k & Lk & _). exists k. exact Lk.
Qed.
Print Assumptions C71_files.

(* It removes only sources which are there, and leaves none behind *)
Theorem C71_sources l s : all_along fair start l -> run start l = Ok s ->
  (forall sid, ~ In (EBadRemove sid) (s_trace s)) /\ (s_stack s = [] -> (forall i, ~ exists_inst (s_trace s) i) -> s_srcs s = []).
Proof.
  intros F R. pose proof (reach _ _ F R) as I. split.
  - apply (along_true no_bad ltac:(intros sid []) no_bad_micro _ _ F R).
  - intros K N. pose proof I as [C [H|[(z & x & H)|(z & x & A & Q)]]].
    + apply H.
    + destruct H as (_ & _ & _ & _ & _ & [K0|(sid & ok & K0)] & _); rewrite K0 in K; discriminate.
    + destruct (N z). eapply live_exists; [exact I|apply A].
Qed.
Print Assumptions C71_sources.

(* The library closes no files of others. Partial: only if other threads open none at the wrong moment. *)
Theorem C71_no_foreign_close_partial l s fd : all_along fair start l -> all_along quiet start l -> run start l = Ok s -> ~ In (EClose fd OFile) (s_trace s).
Proof.
  intros F D R. assert (NF : no_foreign s); [|apply NF].
  eapply (along no_foreign quiet); [exact no_foreign_micro|exact inv_start| |exact F|exact D|exact R]. split; cbn; auto.
Qed.
Print Assumptions C71_no_foreign_close_partial.

Definition twice : list action := [AOpen; ACall (CNew (Some 5%nat)); AOpen; ACall (CNew (Some 5%nat)); ACall (CDestroy 1); ACall (CUnref 0); AGo; ACall (CNew (Some 5%nat)); AOpen; AClose 0].
Example C71_example : exists s, all_along fair start twice /\ all_along quiet start twice /\ run start twice = Ok s /\ s_stack s = [] /\ exists_inst (s_trace s) 1 /\ owned (s_trace s) 2 = 1 /\
  nth_error (s_fds s) 1 = Some (Some (IFile (KFile 1 [(5%nat, 1)]))).
Proof.
  eexists. split; [apply (fairb_ok []); vm_compute; reflexivity|]. split; [apply quietb_ok; vm_compute; reflexivity|]. split; [vm_compute; reflexivity|].
  cbn. refine (conj eq_refl (conj (conj _ _) (conj eq_refl eq_refl))); [exists 1%nat; right; right; left; reflexivity|cbn; intuition discriminate].
Qed.

(* The descriptor is closed twice *)
Theorem C71_closed_once_refuted : exists l s fd k, all_along fair start l /\ all_along quiet start l /\ run start l = Ok s /\ In (EClose fd (IFile k)) (s_trace s) /\ In (EBadClose fd) (s_trace s).
Proof.
  exists [ACall (CNew (Some 5%nat)); ACall (CUnref 0); AGo]. eexists. exists 0%nat, (KFile 1 []). split; [apply (fairb_ok []); vm_compute; reflexivity|].
  split; [apply quietb_ok; vm_compute; reflexivity|]. split; [vm_compute; reflexivity|]. cbn. tauto.
Qed.
Print Assumptions C71_closed_once_refuted.

(* so that a file another thread has opened in between is closed *)
Theorem C71_foreign_close_refuted : exists l s fd, all_along fair start l /\ run start l = Ok s /\ In (EClose fd OFile) (s_trace s).
Proof.
  exists [ACall (CNew (Some 5%nat)); ACall (CUnref 0); AOpen; AGo]. eexists. exists 0%nat. split; [apply (fairb_ok []); vm_compute; reflexivity|]. split; [vm_compute; reflexivity|]. cbn. tauto.
Qed.
Print Assumptions C71_foreign_close_refuted.

(* ---------------- C87: handlers ---------------- *)

(* A handler is called only if it is connected to the watch at that moment *)
Theorem C87_connected l s new w id e old : all_along fair start l -> run start l = Ok s -> s_trace s = new ++ ECall w id e :: old -> In id (connected old w).
Proof.
  intros F R E. destruct (inv_follows _ (reach _ _ F R)) as (c & X & _). rewrite E in X. apply follows_app in X. destruct X as [c' X]. apply follows_call in X.
  destruct X as (i & ids & p & X). apply (follows_incl _ _ X). left. reflexivity.
Qed.
Print Assumptions C87_connected.

(* No event goes to a watch after it has been destroyed *)
Theorem C87_destroyed l l2 s s2 w new i wd : all_along fair start (l ++ l2) -> run start l = Ok s -> In (EDestroy w) (s_trace s) -> run s l2 = Ok s2 ->
  s_trace s2 = new ++ s_trace s -> ~ In (ELook i wd (Some w)) new.
Proof.
  intros F R D R2 E K. assert (R3 : run start (l ++ l2) = Ok s2) by (rewrite run_app, R; exact R2). apply all_along_app in F as F1.
  assert (OB : obeyed s) by (eapply obeyed_run; [exact inv_start|split; [exact story_start|cbn; tauto]|exact F1|exact R]).
  destruct (proj2 OB _ D) as (j & v & ST). apply in_split in K. destruct K as (a & b & ->). rewrite <- app_assoc in E. cbn [app] in E.
  destruct (inv_follows _ (reach _ _ F R3)) as (c & X & _). pose proof (along_true story story_start story_micro _ _ F R3) as SY.
  rewrite E in X. apply follows_app in X. destruct X as [c' X]. apply follows_look in X.
  pose proof (st_order _ SY) as O. rewrite E in O. apply ordered_app in O. cbn [ordered] in O.
  apply (proj2 (ordered_registered _ _ _ _ O X) j v). apply in_or_app. right. exact ST.
Qed.
Print Assumptions C87_destroyed.

(* the trace only grows *)
Theorem C87_grows l l2 s s2 : all_along fair start (l ++ l2) -> run start l = Ok s -> run s l2 = Ok s2 -> exists new, s_trace s2 = new ++ s_trace s.
Proof.
  intros F R R2. apply all_along_app in F as F1. pose proof (reach _ _ F1 R) as I. assert (F2 : all_along fair s l2) by (eapply all_along_rest; eauto).
  clear F F1 R. revert s I R2 F2. induction l2 as [|a l2 IH]; intros s I R2 F2; cbn [run all_along] in *; [injection R2 as <-; exists []; reflexivity|].
  destruct F2 as [F G]. destruct (step_ok _ _ I F) as (s1 & E & I1). rewrite E in *. cbn [bind] in R2. destruct (IH _ I1 R2 G) as [n1 E1].
  destruct (micros_grow _ _ _ _ (ms_step _ _ _ I E)) as [n2 E2]. exists (n1 ++ n2). rewrite E1, E2, app_assoc. reflexivity.
Qed.
Print Assumptions C87_grows.

Example C87_example : exists s s2 new, all_along fair start (firstn 11 busy ++ skipn 11 busy) /\ run start (firstn 11 busy) = Ok s /\ In (EDestroy 0) (s_trace s) /\
  run s (skipn 11 busy) = Ok s2 /\ s_trace s2 = new ++ s_trace s /\ In (ELook 0 2 (Some 1%nat)) new /\ In (ECall 0 2 ev1) (s_trace s).
Proof.
  eexists. eexists. exists [ELook 0 1 None; ELook 0 (-1) None; EReturn; ECall 1 3 ev2; ELook 0 2 (Some 1%nat); EGone 0; EReturn].
  split; [apply (fairb_ok [ev1; ev2; ev3; ev1]); vm_compute; reflexivity|]. split; [vm_compute; reflexivity|]. split; [right; left; reflexivity|]. split; [vm_compute; reflexivity|].
  split; [vm_compute; reflexivity|]. cbn. tauto.
Qed.

(* ---------------- C88: the events are read ---------------- *)

(* While there is an instance the main loop reads from it. Partial: only if its descriptor has had no
   error. *)
Theorem C88_polled_partial l s i : all_along fair start l -> Forall sound l -> run start l = Ok s -> s_stack s = [] -> exists_inst (s_trace s) i ->
  exists sid, forall d, len d <= 272 -> exists s', step s (ADispatch sid (RData d)) = Ok s' /\ s_trace s' = ERead i d :: s_trace s.
Proof.
  intros F SO R K E. pose proof (reach _ _ F R) as I.
  assert (W : watched s).
  { eapply (along watched (fun _ a => sound a)); [|exact inv_start| |exact F|apply along_sound, SO|exact R].
    - intros a s0 x t. apply watched_micro.
    - split; [|cbn; lia]. intros j q H. unfold live in H. destruct j; discriminate. }
  destruct (exists_live _ _ I E) as [q L]. destruct I as [C [X|[(z & x & X)|(z & x & A & Q)]]].
  - destruct X as (_ & X & _). destruct (nlive_0 _ X _ _ L).
  - destruct X as (_ & _ & _ & _ & _ & [K0|(sid & ok & K0)] & _); rewrite K0 in K; discriminate.
  - pose proof (al_one _ _ _ _ A _ _ L). subst z. pose proof (proj1 W _ _ (al_live _ _ _ _ A)) as NZ. pose proof (al_phase _ _ _ _ A) as P. rewrite K in P.
    assert (SR : s_srcs s = [(i_src x, i, false)]) by (inversion P; congruence). exists (i_src x). intros d Hd.
    cbn [step]. rewrite K. cbn [callable]. unfold dispatch, source. rewrite SR. cbn [find fst]. rewrite Nat.eqb_refl. rewrite (get_live _ _ _ (al_live _ _ _ _ A)). cbn [bind].
    destruct (Z.leb_spec (len d) 272); [|lia]. erewrite put_inst_live by apply A. cbn [bind]. eexists. split; reflexivity.
Qed.
Print Assumptions C88_polled_partial.

Example C88_example : exists s, all_along fair start twice /\ Forall sound twice /\ run start twice = Ok s /\ s_stack s = [] /\ exists_inst (s_trace s) 1.
Proof.
  eexists. split; [apply (fairb_ok []); vm_compute; reflexivity|]. split; [apply soundb_ok; vm_compute; reflexivity|]. split; [vm_compute; reflexivity|].
  cbn. refine (conj eq_refl (conj _ _)); [exists 1%nat; right; right; left; reflexivity|cbn; intuition discriminate].
Qed.

(* After an error no watch gets an event until all of them are gone; also those created later *)
Theorem C88_deaf_refuted : exists l s, all_along fair start l /\ run start l = Ok s /\ s_stack s = [] /\ exists_inst (s_trace s) 0 /\
  (exists tr, s_trace s = ENew 1 0 6 2 :: tr) /\ owned (s_trace s) 1 = 1 /\ forall sid r, step s (ADispatch sid r) = Ok s.
Proof.
  exists [ACall (CNew (Some 5%nat)); ADispatch 1 RError; AGo; ACall (CNew (Some 6%nat))]. eexists. split; [apply (fairb_ok []); vm_compute; reflexivity|]. split; [vm_compute; reflexivity|].
  split; [reflexivity|]. split; [split; cbn; [exists 0%nat; tauto|intuition discriminate]|]. split; [eexists; reflexivity|]. split; [reflexivity|]. intros sid r. reflexivity.
Qed.
Print Assumptions C88_deaf_refuted.
