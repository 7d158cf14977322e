(* Properties of idle pools (gutil_idlepool.c). An execution is any list of actions on any thread: calls from outside or from inside
   the destroy callbacks, callbacks returning, a main loop calling a source. Traces have the newest event first. *)
From Verif Require Import Base IdlePoolModel IdlePoolSpec IdlePoolProofs IdlePoolInv IdlePoolStep IdlePoolSane IdlePoolCare IdlePoolPass.
From Coq Require Import Permutation.

Lemma reach s0 l s : starts s0 -> run s0 l = Ok s -> inv s. Proof. intros St. apply run_inv. apply starts_inv. auto. Qed.
Lemma reach_good s0 l s : starts s0 -> run s0 l = Ok s -> good (s_trace s).
Proof. intros St R. destruct (reach s0 l s St R) as (P & I). exact (i_good _ _ _ _ _ I). Qed.
Lemma reach_sane s0 l s : starts s0 -> all_along careful s0 l -> run s0 l = Ok s -> sane false s /\ inv s.
Proof.
  intros St C R. destruct (run_sane false l s0 (starts_inv _ St) (sane_weak _ (starts_sane _ St)) C) as (s' & R' & Sn & I); [discriminate|]. rewrite R in R'. injection R' as <-. auto.
Qed.
Lemma reach_home s0 l s : starts s0 -> all_along careful s0 l -> all_along home s0 l -> run s0 l = Ok s -> sane true s /\ inv s.
Proof.
  intros St C H R. destruct (run_sane true l s0 (starts_inv _ St) (starts_sane _ St) C) as (s' & R' & Sn & I); auto. rewrite R in R'. injection R' as <-. auto.
Qed.
Lemma sane_clean hm s : sane hm s -> clean (s_trace s). Proof. intros []; auto. Qed.
Lemma calm_batches s : inv s -> calm s -> forall t, batches t (s_trace s) = [].
Proof.
  intros (P & I) Cm t. open I. specialize (i_batch0 t). unfold calm in Cm. assert (E : nth t (s_stacks s) [] = []).
  { destruct (nth_in_or_default t (s_stacks s) []) as [X|X]; auto. rewrite Forall_forall in Cm. auto. }
  rewrite E in i_batch0. inversion i_batch0. auto.
Qed.
Lemma clean_at post : forall t w pre, clean (post ++ EDrained t w :: pre) -> waiting pre = [] /\ scheduled pre = [].
Proof. induction post as [|e post IH]; intros t w pre C; cbn in C; [tauto|]. eapply IH. destruct e; try exact C. apply C. Qed.
Lemma count_zero i tr : ~ destroyed i tr -> destructions i tr = 0%nat.
Proof.
  induction tr as [|e tr IH]; auto. intros N. assert (N' : ~ destroyed i tr) by (intros X; apply N, destroyed_cons; auto). specialize (IH N'). destruct e; auto. cbn. destruct (Nat.eqb_spec i i0) as [->|]; auto.
  exfalso. apply N, destroyed_cons. left. eauto.
Qed.
Lemma count_one i tr : good tr -> destroyed i tr -> destructions i tr = 1%nat.
Proof.
  induction tr as [|e tr IH]; intros G D; [destruct D as (t & d & k & [])|]. destruct G as (Lg & G). apply destroyed_cons in D. destruct D as [(t & d & k & ->)|D].
  - cbn. rewrite Nat.eqb_refl. destruct Lg as (_ & _ & N). rewrite count_zero; auto.
  - specialize (IH G D). destruct e; auto. cbn. destruct (Nat.eqb_spec i i0) as [->|]; auto. destruct Lg as (_ & _ & N). contradiction.
Qed.
Lemma quiet_done s : inv s -> calm s -> waiting (s_trace s) = [] -> forall i, added i (s_trace s) -> destroyed i (s_trace s).
Proof.
  intros I Cm W i A. pose proof I as (P & I'). destruct (undone i _ (i_good _ _ _ _ _ I') A) as [X|[X|(t & X)]]; auto; exfalso.
  - rewrite W in X. destruct X.
  - rewrite (calm_batches _ I Cm) in X. destruct X.
Qed.

(* two items; the callback of the first one adds a third item and drains the pool; then another item and the last reference dropped *)
Definition x_prog : list (nat * action) :=
  [(0, ACall (CAdd 10)); (0, ACall (CAdd 20)); (0, ACall CDrain); (0, AStep); (0, AStep); (0, ACall (CAdd 30)); (0, ACall CDrain);
   (0, AStep); (0, AStep); (0, AReturn); (0, AStep); (0, AStep); (0, AStep); (0, AStep); (0, AReturn); (0, AStep); (0, AReturn);
   (0, AStep); (0, AStep); (0, ACall (CAdd 40)); (1, ACall CRef); (0, ACall CUnref); (1, ACall CUnref)]%nat.
(* checking that the actions are allowed *)
Definition fairb (s : state) (x : nat * action) : bool :=
  let u := (1 <=? owned (s_trace s)) || match s_var s with VThis => true | _ => false end in
  match x with
  | (t, ACall (CAdd _)) | (t, ACall CDrain) => Nat.eqb t 0 && u
  | (t, ACall CRef) => u
  | (t, ACall CUnref) => 1 <=? owned (s_trace s)
  | (t, ACall CDestroy) => Nat.eqb t 0 && (1 <=? owned (s_trace s))
  | _ => true
  end.
Definition carefulb (s : state) (x : nat * action) : bool :=
  fairb s x && match x with
  | (_, ACall CDrain) => 1 <=? owned (s_trace s)
  | (_, ACall CUnref) | (_, ACall CDestroy) => (2 <=? owned (s_trace s)) || (draining (s_trace s) =? 0)
  | _ => true
  end.
Definition homeb (s : state) (x : nat * action) : bool := match x with (t, ADispatch _) => Nat.eqb t 0 | _ => true end.
Fixpoint allb (P : state -> nat * action -> bool) (s : state) (l : list (nat * action)) : bool :=
  match l with [] => true | a :: l => P s a && match step s a with Ok s => allb P s l | Fail _ => true end end.
Lemma fair_dec s x : fairb s x = true -> fair s x.
Proof.
  assert (U : (1 <=? owned (s_trace s)) || match s_var s with VThis => true | _ => false end = true -> usable s).
  { intros H. apply orb_prop in H. destruct H as [H|H]; [left; lia|right]. destruct (s_var s); congruence. }
  destruct x as (t & [|c| |sid| | ]); cbn; auto. destruct c; cbn; auto; intros H; try (apply andb_prop in H; destruct H as (H1 & H2); apply Nat.eqb_eq in H1; split; auto); lia.
Qed.
Lemma careful_dec s x : carefulb s x = true -> careful s x.
Proof.
  unfold carefulb. intros H. apply andb_prop in H. destruct H as (H1 & H2). split; [apply fair_dec; auto|]. destruct x as (t & [|c| |sid| | ]); auto.
  destruct c; auto; try lia; apply orb_prop in H2; destruct H2; lia.
Qed.
Lemma home_dec s x : homeb s x = true -> home s x.
Proof. destruct x as (t & [|c| |sid| | ]); cbn; auto. apply Nat.eqb_eq. Qed.
Lemma all_dec (P : state -> nat * action -> Prop) Q : (forall s x, Q s x = true -> P s x) -> forall l s, allb Q s l = true -> all_along P s l.
Proof. intros H. induction l as [|a l IH]; intros s E; cbn in *; auto. apply andb_prop in E. destruct E as (E1 & E2). split; auto. destruct (step s a); auto. Qed.
Definition fair_all := all_dec fair fairb fair_dec.
Definition careful_all := all_dec careful carefulb careful_dec.
Definition home_all := all_dec home homeb home_dec.

Definition x_state : state := match run (start_new 1) x_prog with Ok s => s | Fail _ => start_new 1 end.

(* ================= C58: every item is destroyed exactly once ================= *)
(* For any client: an item is destroyed with the function and the data it was added with, and only once *)
Theorem C58_once s0 l s post t i d k pre : starts s0 -> run s0 l = Ok s -> s_trace s = post ++ EDestroy t i d k :: pre ->
  In (EAdd i d k) pre /\ ~ destroyed i pre /\ ~ destroyed i post.
Proof.
  intros St R Et. pose proof (reach_good _ _ _ St R) as G. rewrite Et in G. pose proof (good_suffix _ _ G) as ((_ & A & N) & _). repeat split; auto.
  intros (t' & d' & k' & I). apply in_split in I. destruct I as (p1 & p2 & ->). rewrite <- app_assoc in G. cbn in G. apply good_suffix in G. destruct G as ((_ & _ & N') & _).
  apply N'. exists t, d, k. apply in_app_iff. cbn. auto.
Qed.
Print Assumptions C58_once.

(* For any client: the items which have been in the pool together when a drain took them out are destroyed in the order in which
   they have been added *)
Theorem C58_order s0 l s post u j d k mid t pre i : starts s0 -> run s0 l = Ok s -> s_trace s = post ++ EDestroy u j d k :: mid ++ EBatch t :: pre ->
  before i j (waiting pre) -> u = t /\ destroyed i (mid ++ EBatch t :: pre).
Proof.
  intros St R Et Bf. pose proof (reach_good _ _ _ St R) as G. rewrite Et in G. apply good_suffix in G. destruct G as (((b & o & Eb) & _ & Nj) & G).
  pose proof (good_single _ G) as Sg. destruct Sg as [_ Sb Swb Sbb Sn].
  assert (Wh : forall mid, good (mid ++ EBatch t :: pre) -> ~ destroyed j (mid ++ EBatch t :: pre) -> exists b, In b (batches t (mid ++ EBatch t :: pre)) /\ In j b).
  { clear - Bf. induction mid as [|e mid IH]; cbn [app]; intros G N.
    - exists (waiting pre). cbn. rewrite Nat.eqb_refl. cbn. split; auto. apply before_in in Bf. tauto.
    - destruct G as (Lg & G). destruct (IH G) as (b & Ib & Ij). { intros X. apply N, destroyed_cons. auto. }
      set (tr := mid ++ EBatch t :: pre) in *.
      destruct e as [ | |x dt kk|v|v|v x dt kk|v|v|v w|v sid|v sid|sid|sid|sid| | | | | ]; try (exists b; split; [exact Ib|exact Ij]).
      + exists b. split; auto. cbn. destruct (Nat.eqb v t); cbn; auto.
      + exists b. split; auto. cbn. destruct (Nat.eqb_spec v t) as [->|]; auto. destruct Lg as (o & Eo). rewrite Eo in *. destruct Ib as [<-|Ib]; auto. destruct Ij.
      + destruct Lg as ((b' & o & Eo) & _). cbn [batches]. destruct (Nat.eqb_spec v t) as [->|]; [|eauto]. rewrite Eo in *. destruct Ib as [<-|Ib]; [|exists b; cbn; auto].
        exists b'. split; [cbn; auto|]. destruct Ij as [->|Ij]; auto. exfalso. apply N, destroyed_cons. left. eauto. }
  destruct (Wh mid G Nj) as (bj & Ibj & Ij).
  assert (u = t) as ->. { destruct (Nat.eq_dec u t) as [|N]; auto. exfalso. eapply (Sbb u t j N); [rewrite Eb; cbn; auto|]. apply in_concat. eauto. }
  split; auto. destruct (ordered t i j mid pre G Bf) as [(b1 & Ib & Bb)|X]; auto. exfalso.
  specialize (Sb t). rewrite Eb in Sb, Ib. cbn in Sb. inversion Sb as [|? ? Nx _]; subst. apply Nx. apply in_app_iff. destruct Ib as [<-|Ib].
  - left. destruct Bb as (a & b2 & c & X). destruct a as [|y a]; injection X as -> ->; [|]; apply in_app_iff; cbn; auto. right. right. apply in_app_iff. cbn. auto.
  - right. apply in_concat. exists b1. split; auto. apply before_in in Bb. tauto.
Qed.
Print Assumptions C58_order.

(* For any client: nothing is forgotten *)
Theorem C58_all s0 l s : starts s0 -> run s0 l = Ok s -> calm s -> waiting (s_trace s) = [] -> forall i, added i (s_trace s) -> destructions i (s_trace s) = 1%nat.
Proof.
  intros St R Cm W i A. pose proof (reach _ _ _ St R) as I. apply count_one; [eapply reach_good; eauto|]. apply quiet_done; auto.
Qed.
Print Assumptions C58_all.

(* When a drain which is not nested in a callback has returned everything which has been added is destroyed *)
Theorem C58_drained s0 l s post t w pre : starts s0 -> all_along careful s0 l -> run s0 l = Ok s -> s_trace s = post ++ EDrained t w :: pre ->
  (forall u, batches u pre = []) -> forall i, added i pre -> destructions i pre = 1%nat.
Proof.
  intros St C R Et Nb i A. pose proof (reach_good _ _ _ St R) as G. rewrite Et in G. apply good_suffix in G. destruct G as (_ & G).
  destruct (reach_sane _ _ _ St C R) as (Sn & _). apply sane_clean in Sn. rewrite Et in Sn. destruct (clean_at _ _ _ _ Sn) as (W & _).
  apply count_one; auto. destruct (undone i pre G A) as [X|[X|(u & X)]]; auto; exfalso; [rewrite W in X|rewrite Nb in X]; destruct X.
Qed.
Print Assumptions C58_drained.

(* When the pool has been freed everything is destroyed *)
Theorem C58_gone s0 l s : starts s0 -> all_along careful s0 l -> run s0 l = Ok s -> s_pool s = None -> forall i, added i (s_trace s) -> destructions i (s_trace s) = 1%nat.
Proof.
  intros St C R E i A. destruct (reach_sane _ _ _ St C R) as (Sn & I). apply count_one; [eapply reach_good; eauto|]. destruct Sn as [q k0 ot E1|q t f E1|E1 E2 E3 E4 E5 E6]; try congruence. apply quiet_done; auto.
Qed.
Print Assumptions C58_gone.

(* the third item is destroyed by the nested drain, in front of the second one; all of them before the outer drain returns *)
Example C58_example : starts (start_new 1) /\ all_along careful (start_new 1) x_prog /\ run (start_new 1) x_prog = Ok x_state /\
  filter (fun e => match e with EDestroy _ _ _ _ | EDrained _ _ => true | _ => false end) (s_trace x_state) =
    [EDrained 0 WClient; EDestroy 0 1 20 KClient; EDrained 0 WClient; EDestroy 0 2 30 KClient; EDestroy 0 0 10 KClient] /\
  (exists post pre, s_trace x_state = post ++ EDrained 0 WClient :: pre /\ (forall u, batches u pre = []) /\ added 2 pre) /\
  (exists post mid pre, s_trace x_state = post ++ EDestroy 0 1 20 KClient :: mid ++ EBatch 0 :: pre /\ before 0 1 (waiting pre)).
Proof.
  split; [exists 1%nat; auto|]. split; [apply careful_all; vm_compute; reflexivity|]. split; [vm_compute; reflexivity|]. split; [vm_compute; reflexivity|]. split.
  - exists (firstn 5 (s_trace x_state)), (skipn 6 (s_trace x_state)). split; [vm_compute; reflexivity|]. split.
    + intros u. vm_compute. destruct u; reflexivity.
    + exists 30, KClient. vm_compute. auto 30.
  - exists (firstn 8 (s_trace x_state)). exists (firstn 10 (skipn 9 (s_trace x_state))). exists (skipn 20 (s_trace x_state)). split; [vm_compute; reflexivity|]. exists [], [], []. vm_compute. reflexivity.
Qed.
(* the idle pass destroys the fourth item and the pool *)
Definition x_end : list (nat * action) := x_prog ++ [(0, ADispatch 2); (0, AStep); (0, AStep); (0, AReturn); (0, AStep); (0, AStep); (0, AStep)]%nat.
Example C58_example_gone : exists s, run (start_new 1) x_end = Ok s /\ all_along careful (start_new 1) x_end /\ calm s /\ waiting (s_trace s) = [] /\ s_pool s = None /\ added 3 (s_trace s) /\ destructions 3 (s_trace s) = 1%nat.
Proof.
  eexists. split; [vm_compute; reflexivity|]. split; [apply careful_all; vm_compute; reflexivity|]. split; [repeat constructor|]. split; [reflexivity|]. split; [reflexivity|]. split; [exists 40, KClient; vm_compute; auto 60|reflexivity].
Qed.

(* ================= C59: drained means empty ================= *)
(* Also if the drain is nested, and for the drains made by the idle source and by the last unref *)
Theorem C59_empty s0 l s post t w pre : starts s0 -> all_along careful s0 l -> run s0 l = Ok s -> s_trace s = post ++ EDrained t w :: pre -> waiting pre = [] /\ scheduled pre = [].
Proof. intros St C R Et. destruct (reach_sane _ _ _ St C R) as (Sn & _). apply sane_clean in Sn. rewrite Et in Sn. eapply clean_at; eauto. Qed.
Print Assumptions C59_empty.

Lemma quiet_srcs hm r q v srcs n ot tr : Liv hm r q v srcs n [] ot tr -> Forall (fun k => k = []) ot -> srcs = map (fun i => (i, false)) (awake srcs).
Proof.
  intros I Cm. openl I. assert (Nt : forall sid, ~ In (sid, true) srcs).
  { intros sid X. apply l_in0 in X. assert (concat ot = []) as E. { clear - Cm. induction Cm as [|k l E F IH]; auto. cbn. rewrite E, IH. auto. } rewrite E in X. destruct X. }
  clear - Nt. induction srcs as [|(i & b) srcs IH]; auto. destruct b; [exfalso; apply (Nt i); cbn; auto|]. cbn. f_equal. apply IH. intros sid X. apply (Nt sid). cbn. auto.
Qed.

(* While items are waiting a source is scheduled and it has a reference *)
Theorem C59_scheduled s0 l s : starts s0 -> all_along careful s0 l -> all_along home s0 l -> run s0 l = Ok s -> callable s -> waiting (s_trace s) <> [] ->
  exists sid q, scheduled (s_trace s) = [sid] /\ s_pool s = Some q /\ p_idle q = sid /\ owned (s_trace s) + 1 <= p_refs q.
Proof.
  intros St C H R Ca W. destruct (reach_home _ _ _ St C H R) as (Sn & _). destruct Sn as [q k0 ot E1 E2 E3 L _|q t f E1 E2 E3 E4 E5 E6 O _ X|E1 E2 E3 E4 E5 E6]; [|exfalso; auto|exfalso; auto].
  unfold callable in Ca. rewrite E2 in Ca. cbn in Ca. pose proof L as L'. openl L'.
  assert (Nz : p_idle q <> 0%nat). { destruct (l_ready0 eq_refl W) as [|(sid & k & ->)]; solve [auto|contradiction]. }
  assert (No : forall id, In id (awake (s_srcs s)) -> id = p_idle q). { intros id X. apply awake_in in X. destruct (l_out0 id X) as [|(w & k & ->)]; solve [auto|contradiction]. }
  assert (Yes : In (p_idle q) (awake (s_srcs s))) by (apply awake_in; auto).
  assert (Nd : NoDup (awake (s_srcs s))). { clear - l_nd0. unfold awake. induction (s_srcs s) as [|(i & b) l IH]; cbn in *; [constructor|]. inversion l_nd0 as [|? ? Ni N']; subst. destruct b; cbn; auto. constructor; auto.
    intros X. apply Ni. apply in_map_iff in X. destruct X as (y & E & X). apply filter_In in X. apply in_map_iff. exists y. tauto. }
  exists (p_idle q), q. split; [|split; [auto|split; [auto|]]].
  - rewrite l_sch0. destruct (awake (s_srcs s)) as [|x [|y l1]]; [destruct Yes| |].
    + f_equal. apply No. cbn. auto.
    + exfalso. assert (x = y) by (rewrite (No x), (No y); cbn; auto). subst y. inversion Nd as [|? ? Nx _]. apply Nx. cbn. auto.
  - rewrite l_refs0. pose proof (ndest_pos k0). pose proof (len_pos (selflist (s_trace s))). assert (1 <= len (s_srcs s)). { specialize (l_idle0 Nz). destruct (s_srcs s); [destruct l_idle0|]. unfold len. cbn [length]. lia. } lia.
Qed.
Print Assumptions C59_scheduled.

Lemma run_app l1 : forall s l2, run s (l1 ++ l2) = (do s' <- run s l1; run s' l2).
Proof. induction l1 as [|a l1 IH]; intros s l2; auto. cbn [app run]. destruct (step s a); cbn [bind]; auto. Qed.
Lemma sane_stacks hm s : sane hm s -> forall k, nth_error (s_stacks s) 0 = Some k -> exists ot, s_stacks s = k :: ot.
Proof. intros _ k E. destruct (s_stacks s) as [|x ot]; [discriminate|]. injection E as ->. eauto. Qed.
(* the scheduled source is called *)
Lemma pass_from s sid ot : inv s -> sane true s -> s_stacks s = [] :: ot -> In sid (scheduled (s_trace s)) ->
  exists l s', forallb passive l = true /\ run s ((0%nat, ADispatch sid) :: l) = Ok s' /\ stack0 s' = [] /\ inv s' /\ sane true s' /\ idle0 s' /\
    (forall u, u <> 0%nat -> nth_error (s_stacks s') u = nth_error (s_stacks s) u) /\ owned (s_trace s') = owned (s_trace s) /\ (forall i, added i (s_trace s') <-> added i (s_trace s)).
Proof.
  intros I Sn Es Hs. destruct (step_sane true s (0%nat, ADispatch sid) I Sn) as (s1 & E & Sn1); [split; exact Logic.I|reflexivity|].
  destruct (step_fine s (0%nat, ADispatch sid) I) as [(s2 & E2 & I1)|(ff & E2 & _)]; [|congruence]. rewrite E in E2. injection E2 as <-.
  destruct (pass_end (S (work s1)) s1) as (l & s' & Pl & R & S0 & I' & Sn' & [A1 A2 A3 (evs & A4 & A5)]); auto.
  exists l, s'. split; auto. split; [cbn [run]; rewrite E; exact R|]. split; auto. split; auto. split; auto.
  destruct Sn as [q k0 ot' E1 E2 E3 L _|q t f E1 E2 E3 E4 E5 E6 O _ X|E1 E2 E3 E4 E5 E6].
  2:{ exfalso. destruct O as (_ & _ & _ & _ & _ & O). rewrite O in Hs. destruct Hs. }
  2:{ exfalso. destruct E3 as (_ & _ & _ & _ & _ & O). rewrite O in Hs. destruct Hs. }
  assert (Ex : existsb (fun x => Nat.eqb (fst x) sid && negb (snd x)) (s_srcs s) = true).
  { apply existsb_exists. exists (sid, false). split; [|cbn; rewrite Nat.eqb_refl; auto]. apply awake_in. rewrite <- (l_sch _ _ _ _ _ _ _ _ _ L). auto. }
  unfold step in E. rewrite Es in E. cbn [nth_error] in E. unfold dispatch in E. rewrite Ex in E. unfold the_pool in E. cbn [s_pool emit set_srcs] in E. rewrite E1 in E. cbn [bind] in E. injection E as <-.
  split; [apply A1; cbn; auto|]. split; [|split].
  - intros u Nu. rewrite A2 by auto. cbn. rewrite Es. destruct u; [congruence|reflexivity].
  - rewrite A3. reflexivity.
  - intros i. rewrite A4. cbn [s_trace emit set_srcs set_stack set_pool]. split; intros (d & k & X); exists d, k.
    + apply in_app_iff in X. destruct X as [X|[X|X]]; [destruct (A5 _ _ _ X)|discriminate|auto].
    + apply in_app_iff. right. cbn. auto.
Qed.

(* When the main loop calls it and the callbacks do nothing the pool gets empty: everything which has been added is destroyed *)
Theorem C59_pass s0 l s : starts s0 -> all_along careful s0 l -> all_along home s0 l -> run s0 l = Ok s -> calm s -> waiting (s_trace s) <> [] ->
  exists sid pass s', In sid (scheduled (s_trace s)) /\ forallb passive pass = true /\ run s ((0%nat, ADispatch sid) :: pass) = Ok s' /\
    waiting (s_trace s') = [] /\ calm s' /\ forall i, added i (s_trace s) -> destructions i (s_trace s') = 1%nat.
Proof.
  intros St C H R Cm W. destruct (reach_home _ _ _ St C H R) as (Sn & I). assert (Es : exists ot, s_stacks s = [] :: ot).
  { destruct Sn as [q k0 ot E1 E2 E3 L _|q t f E1 E2 E3 E4 E5 E6 O _ X|E1 E2 E3 E4 E5 E6]; [|exfalso; auto|exfalso; auto]. unfold calm in Cm. rewrite E2 in Cm. inversion Cm. subst. eauto. }
  destruct Es as (ot & Es). assert (Ca : callable s) by (unfold callable; rewrite Es; exact Logic.I). destruct (C59_scheduled s0 l s St C H R Ca W) as (sid & q & Sc & _).
  destruct (pass_from s sid ot I Sn Es) as (p & s' & Pp & Rp & S0 & I' & Sn' & Z0 & Ot & Ow & Ad). { rewrite Sc. cbn. auto. }
  assert (Cm' : calm s'). { unfold calm in *. rewrite Forall_forall in *. intros k X. apply In_nth_error in X. destruct X as (u & X). destruct (Nat.eq_dec u 0) as [->|N].
    - unfold stack0 in S0. rewrite (nth_of _ _ _ _ X) in S0. auto.
    - rewrite Ot in X by auto. apply Cm. eapply nth_error_In; eauto. }
  assert (W' : waiting (s_trace s') = []).
  { destruct Sn' as [q' k0 ot' E1 E2 E3 L _|q' t f E1 E2 E3 E4 E5 E6 O _ X|E1 E2 E3 E4 E5 E6]; auto. unfold idle0 in Z0. rewrite E1 in Z0. unfold stack0 in S0. rewrite E2 in S0. cbn in S0. subst k0.
    destruct (waiting (s_trace s')) eqn:Ew; auto. exfalso. destruct (l_ready _ _ _ _ _ _ _ _ _ L eq_refl) as [X|(x & k & X)]; [rewrite Ew; discriminate|auto|discriminate]. }
  exists sid, p, s'. repeat split; auto. { rewrite Sc. cbn. auto. } intros i A. apply Ad in A. pose proof I' as (P & IP). apply count_one; [exact (i_good _ _ _ _ _ IP)|]. apply quiet_done; auto.
Qed.
Print Assumptions C59_pass.

Example C59_example : exists s, run (start_new 1) x_prog = Ok s /\ all_along careful (start_new 1) x_prog /\ all_along home (start_new 1) x_prog /\ calm s /\ waiting (s_trace s) = [3%nat] /\ scheduled (s_trace s) = [2%nat].
Proof. eexists. split; [vm_compute; reflexivity|]. split; [apply careful_all; vm_compute; reflexivity|]. split; [apply home_all; vm_compute; reflexivity|]. repeat split; repeat constructor. Qed.

(* The comment at lines 199-203 says that on a wrong thread the callback will keep getting invoked. It is removed instead: the item
   stays in the pool, nothing is scheduled and nothing is in progress. *)
Definition x_wrong : list (nat * action) := [(0, ACall (CAdd 10)); (1, ADispatch 1); (1, AStep)]%nat.
Theorem C59_wrong_thread_refuted : exists s0 l s, starts s0 /\ all_along careful s0 l /\ run s0 l = Ok s /\ calm s /\ waiting (s_trace s) <> [] /\ scheduled (s_trace s) = [].
Proof.
  exists (start_new 1), x_wrong. eexists. split; [exists 1%nat; auto|]. split; [apply careful_all; vm_compute; reflexivity|]. split; [vm_compute; reflexivity|]. split; [repeat constructor|]. split; [discriminate|reflexivity].
Qed.
Print Assumptions C59_wrong_thread_refuted.

(* ================= C60: memory safety ================= *)
(* A client which has a reference while it drains the pool: no fault, also if sources are called on wrong threads *)
Theorem C60_safe_partial s0 l : starts s0 -> all_along careful s0 l -> exists s, run s0 l = Ok s.
Proof.
  intros St C. destruct (run_sane false l s0 (starts_inv _ St) (sane_weak _ (starts_sane _ St)) C) as (s & R & _); [discriminate|]. eauto.
Qed.
Print Assumptions C60_safe_partial.

(* Any client at all: the items are handled correctly; the only possible fault is the use of a pool which has been freed *)
Theorem C60_any_client s0 l a : starts s0 -> forall s, run s0 l = Ok s -> (exists s', step s a = Ok s') \/ ((step s a = Fail UseAfterFree \/ step s a = Fail DoubleFree) /\ s_pool s = None).
Proof.
  intros St s R. destruct (step_fine s a (reach _ _ _ St R)) as [(s' & E & _)|(f & E & [-> | ->] & N)]; eauto.
Qed.
Print Assumptions C60_any_client.

(* The pool is not freed while the client has a reference, while it is being drained or while a source is scheduled *)
Theorem C60_kept s0 l s : starts s0 -> all_along careful s0 l -> run s0 l = Ok s -> s_pool s = None ->
  owned (s_trace s) = 0 /\ draining (s_trace s) = 0 /\ scheduled (s_trace s) = [] /\ s_var s <> VThis /\ s_srcs s = [] /\ calm s.
Proof. intros St C R E. destruct (reach_sane _ _ _ St C R) as (Sn & _). destruct Sn as [q k0 ot E1|q t f E1|E1 E2 E3 E4 E5 E6]; try congruence. unfold over in E3. tauto. Qed.
Print Assumptions C60_kept.

(* Nothing is leaked: without references, items and sources the pool and all items are freed *)
Theorem C60_freed s0 l s : starts s0 -> all_along careful s0 l -> run s0 l = Ok s -> calm s -> owned (s_trace s) = 0 -> scheduled (s_trace s) = [] -> waiting (s_trace s) = [] ->
  s_pool s = None /\ forall a, nth_error (s_heap s) a = None \/ nth_error (s_heap s) a = Some None.
Proof.
  intros St C R Cm Ho Hs Hw. destruct (reach_sane _ _ _ St C R) as (Sn & I). destruct Sn as [q k0 ot E1 E2 E3 L _|q t f E1 E2 E3 E4 E5 E6 O _ X|E1 E2 E3 E4 E5 E6].
  - exfalso. pose proof Cm as Cm'. unfold calm in Cm'. rewrite E2 in Cm'. inversion Cm' as [|? ? X Y]; subst k0 l0 x. pose proof (quiet_srcs _ _ _ _ _ _ _ _ L Y) as Qs. openl L. rewrite <- l_sch0, Hs in Qs.
    rewrite Qs in l_refs0. unfold len in l_refs0 at 2. cbn in l_refs0. destruct (selflist (s_trace s)) as [|i sl] eqn:El.
    + cbn in l_refs0. unfold ndest, len in l_refs0. cbn in l_refs0. lia.
    + pose proof I as (P & IP). destruct (selflist_spec _ (i_good _ _ _ _ _ IP)) as (_ & S1). assert (Ii : In i (selflist (s_trace s))) by (rewrite El; cbn; auto). apply S1 in Ii. destruct Ii as ((d & Ia) & Nd). apply Nd. apply quiet_done; auto. exists d, KSelf. auto.
  - exfalso. unfold calm in Cm. rewrite Forall_forall in Cm. apply nth_error_In in E4. apply Cm in E4. discriminate.
  - split; auto. intros a. destruct (nth_error (s_heap s) a) as [[it|]|] eqn:Ea; auto. exfalso. apply (E6 a). exists it. auto.
Qed.
Print Assumptions C60_freed.

Example C60_example : exists s, run (start_new 1) x_end = Ok s /\ all_along careful (start_new 1) x_end /\ calm s /\ owned (s_trace s) = 0 /\ scheduled (s_trace s) = [] /\ waiting (s_trace s) = [] /\ length (s_heap s) = 4%nat.
Proof. eexists. split; [vm_compute; reflexivity|]. split; [apply careful_all; vm_compute; reflexivity|]. repeat split; repeat constructor. Qed.

(* Using only references it owns is not enough: the client drains the pool, a callback runs the main loop and drops the last
   reference. The nested pass frees the pool and the outer drain touches it. *)
Definition x_last : list (nat * action) :=
  [(0, ACall (CAdd 10)); (0, ACall CDrain); (0, AStep); (0, AStep); (0, ACall CUnref); (0, ADispatch 1); (0, AStep); (0, AStep); (0, AReturn); (0, AStep); (0, AStep)]%nat.
Theorem C60_refuted : exists s0 l, starts s0 /\ all_along fair s0 l /\ all_along home s0 l /\ run s0 l = Fail UseAfterFree.
Proof. exists (start_new 0), x_last. split; [exists 0%nat; auto|]. split; [apply fair_all; vm_compute; reflexivity|]. split; [apply home_all; vm_compute; reflexivity|vm_compute; reflexivity]. Qed.
Print Assumptions C60_refuted.

(* ================= C61: the shared variable ================= *)
(* For any client: as long as the variable points to the pool it is alive, referenced and not being finalised *)
Theorem C61_alive s0 l s : starts s0 -> run s0 l = Ok s -> s_var s = VThis ->
  exists q, s_pool s = Some q /\ 0 < p_refs q /\ ~ In EZero (s_trace s) /\ ~ In EGone (s_trace s).
Proof.
  intros St R V. destruct (run_v l s0 s (starts_v _ St) R V) as (q & E & Pr & _). destruct (run_z l s0 s (starts_v _ St) (starts_z _ St) R V). eauto.
Qed.
Print Assumptions C61_alive.

(* For any client: the variable points to the shared pool until its last reference is dropped. gutil_idle_pool_get does not create
   another one in the meantime. *)
Theorem C61_points n s0 l s : start_shared n = Ok s0 -> run s0 l = Ok s -> ~ In EZero (s_trace s) -> s_var s = VThis.
Proof.
  intros St R N. destruct (run_p l s0 s R) as [P|P]; auto; [|contradiction]. left. destruct (shared_start n) as (s' & E' & ->). rewrite E' in St. injection St as <-. reflexivity.
Qed.
Print Assumptions C61_points.

(* Whatever happens to a pool which is not the shared one, the end of it included, leaves the variable alone *)
Theorem C61_private n l s t a s' : run (start_new n) l = Ok s -> step s (t, a) = Ok s' -> a <> AGet -> a <> AOtherGone -> s_var s' = s_var s.
Proof. intros R St N1 N2. apply (step_k _ _ _ _ St N1 N2). apply (run_priv _ _ _ R). reflexivity. Qed.
Print Assumptions C61_private.
(* A private pool goes away while there is a shared one *)
Example C61_example_private : exists s, run (start_new 0) [(0, AGet); (0, ACall CUnref)]%nat = Ok s /\ In EZero (s_trace s) /\ s_var s = VOther.
Proof. eexists. split; [vm_compute; reflexivity|]. split; [cbn; auto|reflexivity]. Qed.

(* An unreferenced pool destroys itself and everything in it at the next idle pass *)
Theorem C61_self_destroy s0 l s : starts s0 -> all_along careful s0 l -> all_along home s0 l -> run s0 l = Ok s -> calm s -> owned (s_trace s) = 0 -> s_pool s <> None ->
  exists sid pass s', scheduled (s_trace s) = [sid] /\ forallb passive pass = true /\ run s ((0%nat, ADispatch sid) :: pass) = Ok s' /\ s_pool s' = None /\ s_var s' <> VThis /\
    (forall a, nth_error (s_heap s') a = None \/ nth_error (s_heap s') a = Some None) /\ forall i, added i (s_trace s) -> destructions i (s_trace s') = 1%nat.
Proof.
  intros St C H R Cm Ho Np. destruct (reach_home _ _ _ St C H R) as (Sn & I).
  assert (Lv : forall s q k0 ot, inv s -> calm s -> owned (s_trace s) = 0 -> s_pool s = Some q -> s_stacks s = k0 :: ot -> 0 < p_refs q ->
    Liv true (p_refs q) q (s_var s) (s_srcs s) (s_next s) k0 ot (s_trace s) -> exists sid, scheduled (s_trace s) = [sid] /\ p_idle q = sid /\ k0 = [] /\ sid <> 0%nat).
  { clear. intros s q k0 ot I Cm Ho E1 E2 E3 L. pose proof Cm as Cm'. unfold calm in Cm'. rewrite E2 in Cm'. inversion Cm' as [|? ? X Y]; subst k0 l x. pose proof (quiet_srcs _ _ _ _ _ _ _ _ L Y) as Qs. pose proof L as L'. openl L'.
    assert (Nz : p_idle q <> 0%nat).
    { intros Z0. assert (Sr : s_srcs s = []). { destruct (s_srcs s) as [|(i & b) sr] eqn:Er; auto. exfalso. destruct b; [assert (X : In (i, true) ((i, true) :: sr)) by (cbn; auto); rewrite Qs in X; apply in_map_iff in X; destruct X as (? & X & _); discriminate|]. destruct (l_out0 i) as [X|(w & k & X)]; [cbn; auto| |discriminate]. destruct (l_lt0 i false); cbn; auto; lia. }
      rewrite Sr in l_refs0. destruct (selflist (s_trace s)) as [|i sl] eqn:El; [unfold ndest, len in l_refs0; cbn in l_refs0; lia|].
      pose proof I as (P & IP). destruct (selflist_spec _ (i_good _ _ _ _ _ IP)) as (_ & S1). assert (Ii : In i (selflist (s_trace s))) by (rewrite El; cbn; auto). apply S1 in Ii. destruct Ii as ((d & Ia) & Nd).
      destruct (waiting (s_trace s)) eqn:Ew; [apply Nd; apply quiet_done; auto; exists d, KSelf; auto|]. destruct l_ready0 as [X|(w & k & X)]; auto; discriminate. }
    exists (p_idle q). split; [|auto]. rewrite l_sch0. assert (Yes : In (p_idle q) (awake (s_srcs s))) by (apply awake_in; auto).
    assert (No : forall id, In id (awake (s_srcs s)) -> id = p_idle q). { intros id X. apply awake_in in X. destruct (l_out0 id X) as [|(w & k & Z0)]; [auto|discriminate]. }
    assert (Nd : NoDup (awake (s_srcs s))). { rewrite Qs in l_nd0. rewrite map_map in l_nd0. cbn in l_nd0. rewrite map_id in l_nd0. auto. }
    destruct (awake (s_srcs s)) as [|x [|y l1]]; [destruct Yes| |].
    - f_equal. apply No. cbn. auto.
    - exfalso. assert (x = y) by (rewrite (No x), (No y); cbn; auto). subst y. inversion Nd as [|? ? Nx _]. apply Nx. cbn. auto. }
  destruct Sn as [q k0 ot E1 E2 E3 L Cl|q t f E1 E2 E3 E4 E5 E6 O _ X|E1 E2 E3 E4 E5 E6]; [| |congruence].
  2:{ exfalso. unfold calm in Cm. rewrite Forall_forall in Cm. apply nth_error_In in E4. apply Cm in E4. discriminate. }
  destruct (Lv s q k0 ot I Cm Ho E1 E2 E3 L) as (sid & Sc & _ & -> & _).
  assert (Sn : sane true s) by (eapply (live true s q [] ot); eauto).
  destruct (pass_from s sid ot I Sn E2) as (p & s' & Pp & Rp & S0 & I' & Sn' & Z0 & Ot & Ow & Ad). { rewrite Sc. cbn. auto. }
  assert (Cm' : calm s'). { unfold calm in *. rewrite Forall_forall in *. intros k X. apply In_nth_error in X. destruct X as (u & X). destruct (Nat.eq_dec u 0) as [->|N].
    - unfold stack0 in S0. rewrite (nth_of _ _ _ _ X) in S0. auto.
    - rewrite Ot in X by auto. apply Cm. eapply nth_error_In; eauto. }
  exists sid, p, s'. split; auto. split; auto. split; auto.
  destruct Sn' as [q' k0 ot' F1 F2 F3 L' _|q' t f F1 F2 F3 F4 F5 F6 O _ X|F1 F2 F3 F4 F5 F6].
  - exfalso. rewrite Ho in Ow. destruct (Lv s' q' k0 ot' I' Cm' Ow F1 F2 F3 L') as (sid' & _ & Y & _ & Nz). unfold idle0 in Z0. rewrite F1 in Z0. congruence.
  - exfalso. unfold calm in Cm'. rewrite Forall_forall in Cm'. apply nth_error_In in F4. apply Cm' in F4. discriminate.
  - split; auto. split; [unfold over in F3; tauto|]. split.
    + intros a. destruct (nth_error (s_heap s') a) as [[it|]|] eqn:Ea; auto. exfalso. apply (F6 a). exists it. auto.
    + intros i A. apply Ad in A. pose proof I' as (P & IP). apply count_one; [exact (i_good _ _ _ _ _ IP)|]. apply quiet_done; auto.
Qed.
Print Assumptions C61_self_destroy.

(* gutil_idle_pool_get, an item added, nobody takes a reference *)
Definition x_shared : state := match start_shared 0 with Ok s => s | Fail _ => start_new 0 end.
Example C61_example : start_shared 0 = Ok x_shared /\ s_var x_shared = VThis /\
  exists s, run x_shared [(0%nat, ACall (CAdd 10))] = Ok s /\ all_along careful x_shared [(0%nat, ACall (CAdd 10))] /\ all_along home x_shared [(0%nat, ACall (CAdd 10))] /\
  calm s /\ owned (s_trace s) = 0 /\ s_pool s <> None /\ s_var s = VThis /\
  exists s', run s [(0, ADispatch 1); (0, AStep); (0, AStep); (0, AStep); (0, AStep); (0, AReturn); (0, AStep); (0, AStep); (0, AStep)]%nat = Ok s' /\ s_pool s' = None /\ s_var s' = VNull.
Proof.
  split; [vm_compute; reflexivity|]. split; [vm_compute; reflexivity|]. eexists. split; [vm_compute; reflexivity|]. split; [apply careful_all; vm_compute; reflexivity|]. split; [apply home_all; vm_compute; reflexivity|].
  split; [repeat constructor|]. split; [reflexivity|]. split; [discriminate|]. split; [reflexivity|]. eexists. split; [vm_compute; reflexivity|]. split; reflexivity.
Qed.

(* If the source has been called on a wrong thread there is no next idle pass: nobody has a reference, nothing is scheduled and the
   pool and its items stay *)
Theorem C61_wrong_thread_refuted : exists s0 l s, starts s0 /\ all_along careful s0 l /\ run s0 l = Ok s /\ calm s /\ owned (s_trace s) = 0 /\ scheduled (s_trace s) = [] /\
  s_pool s <> None /\ forall sid t, step s (t, ADispatch sid) = Ok s.
Proof.
  exists (match start_shared 1 with Ok s => s | Fail _ => start_new 1 end), [(1, ADispatch 1); (1, AStep)]%nat. eexists. split; [exists 1%nat; right; reflexivity|]. split; [apply careful_all; vm_compute; reflexivity|].
  split; [vm_compute; reflexivity|]. split; [repeat constructor|]. split; [reflexivity|]. split; [reflexivity|]. split; [discriminate|]. intros sid [|[|[|t]]]; reflexivity.
Qed.
Print Assumptions C61_wrong_thread_refuted.
