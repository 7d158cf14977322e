(* Theorems about time notifications: C76, C89, C90 *)
From Verif Require Import Base TimeModel TimeSpec TimeProofs TimeProofs2 TimeProofs3.

Lemma inst_usable s o : Inv s -> s_inst s = Some o -> usable o (s_trace s).
Proof.
  intros V P. pose proof (V_cur s V) as K. unfold cur in K. rewrite P in K. destruct K as (x & E & L & R & R1 & S0 & K). unfold usable. rewrite (V_firing s V o).
  destruct (t_chan x) as [c|].
  - destruct K as (on & run & _ & _ & K & _). destruct run; [destruct K as (_ & l & K); right|left]; rewrite K in *; cbn [length in_frames f_obj] in *; rewrite ?Nat.eqb_refl; lia.
  - destruct K as (_ & K & _). left. rewrite K in R. cbn [length] in R. lia.
Qed.

(* A story: two clients share the object. The first handler removes the second one and drops both references
   while the signal is emitted. Then there is a new object. *)
Definition story : list action :=
  [ANew true; ANew true; AAdd (Some 0%nat); AAdd (Some 0%nat); AAdd (Some 0%nat); ABegin 0; AEmit; ARemove (Some 0%nat) 1; AUnref (Some 0%nat); AUnref (Some 0%nat);
   AAdd (Some 0%nat); AEmit; AEmit; AEnd; ANew true; AError 1; ARef (Some 1%nat); AUnref (Some 1%nat)].
Definition fairb (s : state) (a : action) : bool :=
  match a with
  | ANew _ | AEmit | AEnd => true
  | ARef (Some o) | AAdd (Some o) | ARemove (Some o) _ => (0 <? strong o (s_trace s)) || (0 <? firing o (s_trace s))
  | AUnref (Some o) => 0 <? strong o (s_trace s)
  | AError c | ABegin c => match nth_error (s_io s) c with Some y => i_on y && negb (i_running y) | None => false end
  | _ => true
  end.
Lemma fairb_ok s a : fairb s a = true -> fair s a.
Proof.
  destruct a as [ok|[o|]|[o|]|[o|]|[o|] h|c|c| |]; cbn [fairb fair use]; intros H; try exact I;
    try (apply Bool.orb_true_iff in H; destruct H as [H|H]; apply Z.ltb_lt in H; [left|right]; lia);
    try (apply Z.ltb_lt in H; lia);
    unfold ready; destruct (nth_error (s_io s) c) as [y|]; try discriminate; apply Bool.andb_true_iff in H; destruct H as [H1 H2]; apply Bool.negb_true_iff in H2; exists y; auto.
Qed.
Fixpoint alongb (s : state) (l : list action) : bool :=
  match l with [] => true | a :: l => fairb s a && match step s a with Ok s => alongb s l | Fail _ => true end end.
Lemma alongb_ok l : forall s, alongb s l = true -> all_along fair s l.
Proof.
  induction l as [|a l IH]; intros s; cbn [alongb all_along]; [auto|]. intros H. apply Bool.andb_true_iff in H. destruct H as [H1 H2]. split; [exact (fairb_ok s a H1)|].
  destruct (step s a); [exact (IH _ H2)|exact I].
Qed.
Lemma story_fair : all_along fair start story.
Proof. apply alongb_ok. vm_compute. reflexivity. Qed.

(* Nothing bad happens *)
Theorem C76_safe : forall l, all_along fair start l -> exists s, run start l = Ok s.
Proof. intros l F. destruct (inv_run l _ inv_start F) as (s & E & _). exists s. exact E. Qed.
Print Assumptions C76_safe.
Example C76_example_safe : exists s, run start story = Ok s /\ strong 1 (s_trace s) = 1 /\ firing 0 (s_trace s) = 0.
Proof. eexists. split; [vm_compute; reflexivity|]. split; reflexivity. Qed.

(* All who have a reference, or are called by an object, have the same one *)
Theorem C76_one : forall l s p q, all_along fair start l -> run start l = Ok s -> usable p (s_trace s) -> usable q (s_trace s) -> p = q.
Proof. intros l s p q F E P Q. pose proof (inv_reach l s F E) as V. pose proof (usable_inst s p V P). pose proof (usable_inst s q V Q). congruence. Qed.
Print Assumptions C76_one.
Example C76_example_one : exists s, run start (firstn 9 story) = Ok s /\ usable 0 (s_trace s) /\ strong 0 (s_trace s) = 1 /\ firing 0 (s_trace s) = 1.
Proof. eexists. split; [vm_compute; reflexivity|]. split; [left; vm_compute; reflexivity|]. split; reflexivity. Qed.

(* gutil_time_notify_new returns the object which is there, or a new one if there is none *)
Theorem C76_new : forall l s ok, all_along fair start l -> run start l = Ok s -> exists s', step s (ANew ok) = Ok s' /\
  ((exists o, usable o (s_trace s) /\ s_trace s' = EGot o :: s_trace s) \/
   ((forall o, ~ usable o (s_trace s)) /\ exists o k, number (is_new o) (s_trace s) = 0 /\ s_trace s' = EGot o :: k ++ ENew o :: s_trace s)).
Proof.
  intros l s ok F E. pose proof (inv_reach l s F E) as V. cbn [step]. unfold time_notify_new. destruct (s_inst s) as [o|] eqn:P.
  - destruct (inst_obj s o V P) as (x & X & L & O). unfold ref. rewrite O. cbn [bind]. eexists. split; [reflexivity|]. left. exists o. split; [exact (inst_usable s o V P)|reflexivity].
  - eexists. split; [reflexivity|]. right. split; [intros o U; pose proof (usable_inst s o V U); congruence|]. exists (length (s_objs s)). unfold create. destruct ok; cbn [emit set_inst s_trace].
    + exists [EAttach (length (s_io s)); EOpen (length (s_io s))]. split; [apply (V_noobj s V); lia|reflexivity].
    + exists []. split; [apply (V_noobj s V); lia|reflexivity].
Qed.
Print Assumptions C76_new.
Example C76_example_new : (exists s s', run start (firstn 1 story) = Ok s /\ step s (ANew true) = Ok s' /\ s_trace s' = EGot 0 :: s_trace s) /\
  (exists s s', run start (firstn 14 story) = Ok s /\ step s (ANew true) = Ok s' /\ hd_error (s_trace s') = Some (EGot 1)).
Proof. split; eexists; eexists; (split; [vm_compute; reflexivity|]); (split; [vm_compute; reflexivity|]); reflexivity. Qed.

(* An object is freed once, when it can not be used anymore *)
Theorem C76_life : forall l s o, all_along fair start l -> run start l = Ok s ->
  number (is_new o) (s_trace s) = 0 /\ number (is_final o) (s_trace s) = 0 /\ ~ usable o (s_trace s) \/
  number (is_new o) (s_trace s) = 1 /\ number (is_final o) (s_trace s) = 0 /\ usable o (s_trace s) \/
  number (is_new o) (s_trace s) = 1 /\ number (is_final o) (s_trace s) = 1 /\ ~ usable o (s_trace s).
Proof.
  intros l s o F E. pose proof (inv_reach l s F E) as V. destruct (nth_error (s_objs s) o) as [x|] eqn:X.
  - right. destruct (V_obj s V o x X) as [A B]. destruct (t_live x) eqn:L; cbn [negb b2z] in B; [left|right]; (split; [exact A|]); (split; [exact B|]).
    + apply (inst_usable s o V). destruct (s_inst s) as [p|] eqn:P; [destruct (Nat.eq_dec p o); [congruence|]|]; pose proof (V_objs s V o x X) as Q; rewrite P in Q; rewrite Q in L; congruence.
    + intros U. destruct (inst_obj s o V (usable_inst s o V U)) as (x1 & X1 & L1 & _). congruence.
  - left. assert (LO : (length (s_objs s) <= o)%nat) by (apply nth_error_None; exact X). destruct (V_noobj s V o LO) as [A B]. split; [exact A|]. split; [exact B|].
    intros U. destruct (inst_obj s o V (usable_inst s o V U)) as (x1 & X1 & L1 & _). congruence.
Qed.
Print Assumptions C76_life.
Example C76_example_life : exists s, run start story = Ok s /\ number (is_final 0) (s_trace s) = 1 /\ number (is_new 1) (s_trace s) = 1 /\ number (is_final 1) (s_trace s) = 0.
Proof. eexists. split; [vm_compute; reflexivity|]. repeat split. Qed.

(* The file is open as long as its object can be used, and is closed once *)
Theorem C89_file : forall l s c, all_along fair start l -> run start l = Ok s ->
  number (is_open c) (s_trace s) = 0 /\ number (is_close c) (s_trace s) = 0 \/
  number (is_open c) (s_trace s) = 1 /\ exists o, maker c (s_trace s) = Some o /\
    (usable o (s_trace s) /\ number (is_close c) (s_trace s) = 0 \/ ~ usable o (s_trace s) /\ number (is_close c) (s_trace s) = 1).
Proof.
  intros l s c F E. pose proof (inv_reach l s F E) as V. pose proof (own_run l _ _ own_start E) as W. destruct (nth_error (s_io s) c) as [y|] eqn:Y.
  - right. destruct (V_io s V c y Y) as (A & B & _). split; [exact A|]. destruct (W c y Y) as (M & x & X & C). exists (i_obj y). split; [exact M|]. rewrite B.
    pose proof (V_cur s V) as K. unfold cur in K. destruct (s_inst s) as [o|] eqn:P.
    + destruct K as (x0 & X0 & L & R & R1 & S0 & K). destruct (Nat.eq_dec (i_obj y) o) as [Q|NQ].
      * left. rewrite Q. split; [exact (inst_usable s o V P)|]. rewrite Q, X0 in X. injection X as ->. rewrite C in K. destruct K as (on & run & I0 & _). rewrite I0 in Y. injection Y as <-. reflexivity.
      * right. split; [intros U; pose proof (usable_inst s _ V U); congruence|]. assert (D : dead y).
        { destruct (t_chan x0) as [d|]; [|destruct K as (_ & _ & K); exact (K c y Y)]. destruct K as (on & run & I0 & _ & _ & K). destruct (Nat.eq_dec c d) as [->|N]; [|exact (K c y N Y)].
          rewrite I0 in Y. injection Y as <-. cbn [live_io i_obj] in NQ. congruence. }
        destruct D as (D & _). rewrite D. reflexivity.
    + right. split; [intros U; pose proof (usable_inst s _ V U); congruence|]. destruct K as [_ K]. destruct (K c y Y) as (D & _). rewrite D. reflexivity.
  - left. assert (LC : (length (s_io s) <= c)%nat) by (apply nth_error_None; exact Y). destruct (V_noio s V c LC) as (A & B & _). auto.
Qed.
Print Assumptions C89_file.
Example C89_example_file : exists s, run start story = Ok s /\ maker 0 (s_trace s) = Some 0%nat /\ number (is_close 0) (s_trace s) = 1 /\
  maker 1 (s_trace s) = Some 1%nat /\ number (is_open 1) (s_trace s) = 1 /\ number (is_close 1) (s_trace s) = 0.
Proof. eexists. split; [vm_compute; reflexivity|]. repeat split. Qed.

(* The source is in the main loop as long as the object can be used, unless there was an error; it is removed once *)
Theorem C89_source : forall l s c, all_along fair start l -> run start l = Ok s ->
  number (is_attach c) (s_trace s) = number (is_open c) (s_trace s) /\
  (number (is_close c) (s_trace s) = 0 -> number (is_destroy c) (s_trace s) = number (is_error c) (s_trace s)) /\
  (number (is_close c) (s_trace s) = 1 -> number (is_destroy c) (s_trace s) = 1) /\
  0 <= number (is_destroy c) (s_trace s) <= number (is_attach c) (s_trace s).
Proof.
  intros l s c F E. pose proof (inv_reach l s F E) as V. destruct (nth_error (s_io s) c) as [y|] eqn:Y.
  - destruct (V_io s V c y Y) as (A & B & C & D & G & H). split; [congruence|]. rewrite B, C, D. split.
    + destruct (i_open y); [intros _; rewrite G; reflexivity|discriminate].
    + split; [|destruct (i_on y); cbn; lia]. intros Q. assert (DY : dead y).
      { pose proof (V_cur s V) as K. unfold cur in K. destruct (s_inst s) as [o|]; [|destruct K as [_ K]; exact (K c y Y)]. destruct K as (x0 & X0 & L & R & R1 & S0 & K).
        destruct (t_chan x0) as [d|]; [|destruct K as (_ & _ & K); exact (K c y Y)]. destruct K as (on & run & I0 & _ & _ & K). destruct (Nat.eq_dec c d) as [->|N]; [|exact (K c y N Y)].
        rewrite I0 in Y. injection Y as <-. discriminate. }
      destruct DY as (_ & _ & -> & _). reflexivity.
  - assert (LC : (length (s_io s) <= c)%nat) by (apply nth_error_None; exact Y). destruct (V_noio s V c LC) as (A & B & C & D & G & H). rewrite A, B, C, D, G. lia.
Qed.
Print Assumptions C89_source.
Example C89_example_source : exists s, run start story = Ok s /\ number (is_destroy 0) (s_trace s) = 1 /\ number (is_error 0) (s_trace s) = 0 /\
  number (is_error 1) (s_trace s) = 1 /\ number (is_destroy 1) (s_trace s) = 1 /\ number (is_close 1) (s_trace s) = 0.
Proof. eexists. split; [vm_compute; reflexivity|]. repeat split. Qed.

(* The channel is freed with the file closed *)
Theorem C89_channel : forall l s c, all_along fair start l -> run start l = Ok s -> number (is_free c) (s_trace s) = number (is_close c) (s_trace s).
Proof.
  intros l s c F E. pose proof (inv_reach l s F E) as V. destruct (nth_error (s_io s) c) as [y|] eqn:Y.
  - destruct (V_io s V c y Y) as (_ & B & _ & _ & _ & H). rewrite B, H. assert (D : i_open y = i_live y); [|rewrite D; reflexivity].
    assert (DD : dead y -> i_open y = i_live y) by (intros (-> & -> & _); reflexivity).
    pose proof (V_cur s V) as K. unfold cur in K. destruct (s_inst s) as [o|]; [|destruct K as [_ K]; exact (DD (K c y Y))]. destruct K as (x0 & X0 & L & R & R1 & S0 & K).
    destruct (t_chan x0) as [d|]; [|destruct K as (_ & _ & K); exact (DD (K c y Y))]. destruct K as (on & run & I0 & _ & _ & K). destruct (Nat.eq_dec c d) as [->|N]; [|exact (DD (K c y N Y))].
    rewrite I0 in Y. injection Y as <-. reflexivity.
  - assert (LC : (length (s_io s) <= c)%nat) by (apply nth_error_None; exact Y). destruct (V_noio s V c LC) as (_ & B & _ & _ & _ & H). congruence.
Qed.
Print Assumptions C89_channel.
Example C89_example_channel : exists s, run start story = Ok s /\ number (is_free 0) (s_trace s) = 1 /\ number (is_free 1) (s_trace s) = 0.
Proof. eexists. split; [vm_compute; reflexivity|]. split; reflexivity. Qed.

(* No file is closed which is not open, no source is removed which is not there *)
Theorem C89_clean : forall l s e, all_along fair start l -> run start l = Ok s -> In e (s_trace s) -> is_bad e = false.
Proof.
  intros l s e F E M. pose proof (V_bad s (inv_reach l s F E)) as B. revert B M. clear.
  assert (P : forall f l, 0 <= number f l) by (intros f l; induction l as [|d l IH]; cbn [number]; [lia|destruct (f d); lia]).
  induction (s_trace s) as [|d t IH]; cbn [number]; intros B []; pose proof (P is_bad t).
  - subst d. destruct (is_bad e); [lia|reflexivity].
  - apply IH; [destruct (is_bad d); lia|assumption].
Qed.
Print Assumptions C89_clean.
(* a source which the error has removed is not removed again when the object is freed *)
Example C89_example_clean : exists s, run start (story ++ [AUnref (Some 1%nat)]) = Ok s /\ number (is_destroy 1) (s_trace s) = 1 /\ number (is_close 1) (s_trace s) = 1.
Proof. eexists. split; [vm_compute; reflexivity|]. repeat split. Qed.

(* The next one called is the first of those whose turn it is which is still connected; nobody is left out *)
Theorem C90_turn : forall l s, all_along fair start l -> run start l = Ok s -> good (s_trace s).
Proof. intros l s F E. exact (D_good s (del_run l _ _ inv_start del_start F E)). Qed.
Print Assumptions C90_turn.
Example C90_example_turn : exists s, run start (firstn 13 story) = Ok s /\ calls 0 (s_trace s) = [0; 2]%nat /\ conn 0 (s_trace s) = [0; 2; 3]%nat /\ left 0 (s_trace s) = Some [].
Proof. eexists. split; [vm_compute; reflexivity|]. repeat split. Qed.

(* Everybody connected when the emission begins is called at most once, in this order, and can be left out only by being removed meanwhile *)
Theorem C90_calls : forall l s o new seg old, all_along fair start l -> run start l = Ok s ->
  s_trace s = new ++ EEnd o :: seg ++ EFire o :: old -> (forall e, In e seg -> e <> EFire o /\ e <> EEnd o) ->
  NoDup (conn o old) /\ sublist (calls o seg) (conn o old) /\ forall h, In h (conn o old) -> In h (calls o seg) \/ In (ERemove o h) seg.
Proof.
  intros l s o new seg old F E T NS. pose proof (D_good s (del_run l _ _ inv_start del_start F E)) as G. rewrite T in G. apply good_app in G. destruct G as [GE G].
  assert (FI : Forall (inside o) seg).
  { apply Forall_forall. intros e M. destruct (NS e M) as [N1 N2]. destruct e; cbn [inside]; try exact I; congruence. }
  destruct (emission_calls o seg old FI G) as (pre & rest & L & C & SB & R). split; [|split].
  - apply good_app in G. destruct G as [[_ G] _]. exact G.
  - rewrite C. apply sublist_skip. exact SB.
  - intros h M. rewrite C in M. apply in_app_or in M. destruct M as [M|M]; [exact (R h M)|]. right. destruct GE as (t & LT & NT). rewrite L in LT. injection LT as <-.
    destruct (removed_dec o h seg) as [Q|Q]; [exact Q|]. destruct (NT h M). change (In h (conn o (seg ++ [EFire o] ++ old))). rewrite app_assoc. apply conn_stays.
    + rewrite C. apply in_or_app. right. exact M.
    + intros Z. apply in_app_or in Z. destruct Z as [Z|[Z|[]]]; [exact (Q Z)|discriminate].
Qed.
Print Assumptions C90_calls.
Example C90_example_calls : exists s new seg old, run start (firstn 14 story) = Ok s /\ s_trace s = new ++ EEnd 0 :: seg ++ EFire 0 :: old /\
  (forall e, In e seg -> e <> EFire 0 /\ e <> EEnd 0) /\ conn 0 old = [0; 1; 2]%nat /\ calls 0 seg = [0; 2]%nat.
Proof.
  eexists. exists [EFree 0; EFinal 0; EClose 0; EDestroy 0], [ECall 0 2; EAdd 0 3; EUnref 0; EUnref 0; ERemove 0 1; ECall 0 0]. eexists. split; [vm_compute; reflexivity|]. split; [reflexivity|].
  split; [|split; reflexivity]. intros e M. cbn [In] in M. repeat (destruct M as [<-|M]; [split; discriminate|]). destruct M.
Qed.

(* Nobody is called who is not connected *)
Theorem C90_connected : forall l s o h new old, all_along fair start l -> run start l = Ok s -> s_trace s = new ++ ECall o h :: old -> In h (conn o old).
Proof.
  intros l s o h new old F E T. pose proof (D_good s (del_run l _ _ inv_start del_start F E)) as G. rewrite T in G. apply good_app in G. destruct G as [(k & t & _ & M & _) _]. exact M.
Qed.
Print Assumptions C90_connected.
Example C90_example_connected : exists s new old, run start (firstn 12 story) = Ok s /\ s_trace s = new ++ ECall 0 0 :: old /\ conn 0 old = [0; 1; 2]%nat /\ ~ In 1%nat (conn 0 (s_trace s)).
Proof.
  eexists. exists [EAdd 0 3; EUnref 0; EUnref 0; ERemove 0 1]. eexists. split; [vm_compute; reflexivity|]. split; [reflexivity|]. split; [reflexivity|]. vm_compute. intros M. repeat (destruct M as [M|M]; [discriminate|]). exact M.
Qed.

(* The emission ends if the handlers return *)
Theorem C90_ends : forall l s, all_along fair start l -> run start l = Ok s -> exists n s', run s (repeat AEmit n ++ [AEnd]) = Ok s' /\ forall o, firing o (s_trace s') = 0.
Proof.
  intros l s F E. pose proof (inv_reach l s F E) as V. clear F E l.
  assert (GEN : forall n s, Inv s -> (forall c o t fs, s_frames s = Frame c o t :: fs -> length t = n) -> exists s', run s (repeat AEmit n ++ [AEnd]) = Ok s' /\ forall o, firing o (s_trace s') = 0).
  { clear s V. induction n as [|n IH]; intros s V N; cbn [repeat app run step].
    - destruct (inv_end s V) as (s' & E & V' & _ & K). rewrite E. cbn [bind]. exists s'. split; [reflexivity|]. intros o. rewrite (V_firing s' V').
      destruct (s_frames s) as [|[c p [|h t]] fs] eqn:F; [|destruct K as [K _]; rewrite K; reflexivity|discriminate (N _ _ _ _ eq_refl)]. subst s'. rewrite F. reflexivity.
    - destruct (inv_emission s V) as (s' & E & V' & _ & _ & K). rewrite E. cbn [bind]. apply (IH s' V'). intros c o t fs F'.
      destruct (s_frames s) as [|[d p [|h u]] gs] eqn:F; [subst s'; congruence|discriminate (N _ _ _ _ eq_refl)|].
      destruct K as [K _]. rewrite K in F'. injection F' as <- <- <- <-. specialize (N _ _ _ _ eq_refl). cbn [length] in N. congruence. }
  destruct (s_frames s) as [|[c o t] fs] eqn:F.
  - destruct (GEN O s V) as (s' & E & H); [rewrite F; discriminate|]. exists O, s'. auto.
  - destruct (GEN (length t) s V) as (s' & E & H); [rewrite F; intros d p u gs Q; injection Q as <- <- <- <-; reflexivity|]. exists (length t), s'. auto.
Qed.
Print Assumptions C90_ends.
Example C90_example_ends : exists s s', run start (firstn 7 story) = Ok s /\ run s (repeat AEmit 2 ++ [AEnd]) = Ok s' /\ firing 0 (s_trace s) = 1 /\ firing 0 (s_trace s') = 0 /\ calls 0 (s_trace s') = [0; 1; 2]%nat.
Proof. eexists. eexists. split; [vm_compute; reflexivity|]. split; [vm_compute; reflexivity|]. repeat split. Qed.
