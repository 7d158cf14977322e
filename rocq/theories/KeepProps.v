(* Properties of the functions which give an object to an idle pool (gutil_idlepool.c, lines 258-382) *)
From Verif Require Import Base IdlePoolModel IdlePoolSpec IdlePoolProofs IdlePoolInv IdlePoolStep IdlePoolSane IdlePoolCare IdlePoolPass IdlePoolProps KeepModel KeepSpec KeepProofs.

Lemma kreach s0 l k : starts s0 -> kall sensible (kstart s0) l -> krun (kstart s0) l = Ok k -> KInv false k /\ exists pl, run s0 pl = Ok (k_pool k) /\ all_along careful s0 pl.
Proof.
  intros St A R. destruct (krun_ok false l (kstart s0) (kstart_inv _ _ St) A) as (k' & pl & E & K & Rp & C & _); [discriminate|]. rewrite R in E. injection E as <-. eauto.
Qed.
Lemma khomereach s0 l k : starts s0 -> kall sensible (kstart s0) l -> kall khome (kstart s0) l -> krun (kstart s0) l = Ok k ->
  KInv true k /\ exists pl, run s0 pl = Ok (k_pool k) /\ all_along careful s0 pl /\ all_along home s0 pl.
Proof.
  intros St A H R. destruct (krun_ok true l (kstart s0) (kstart_inv _ _ St) A (fun _ => H)) as (k' & pl & E & K & Rp & C & Hh). rewrite R in E. injection E as <-. eauto 6.
Qed.
Lemma done_released m pairs lg tr : KI m pairs lg tr -> good tr -> (forall i, added i tr -> destroyed i tr) -> forall o, released o lg = given o lg.
Proof. intros I G D o. rewrite (ki_given _ _ _ _ I), (ki_released _ _ _ _ I). apply dests_eq; auto. Qed.
Lemma destroyed_of i tr : destructions i tr = 1%nat -> destroyed i tr.
Proof.
  intros E. enough (~ ~ destroyed i tr) as X.
  { clear E. assert (destroyed i tr \/ ~ destroyed i tr) as [|]; [|auto|tauto]. clear X. induction tr as [|e tr [IH|IH]].
    - right. intros (t & d & k & []).
    - left. apply destroyed_cons. auto.
    - destruct e; try (right; intros X; apply destroyed_cons in X; destruct X as [(a & b & c & X)|X]; [discriminate|auto]).
      destruct (Nat.eq_dec i0 i) as [->|N]; [left; apply destroyed_cons; left; eauto|]. right. intros X. apply destroyed_cons in X. destruct X as [(a & b & c & X)|X]; [|auto]. congruence. }
  intros N. rewrite (count_zero _ _ N) in E. discriminate.
Qed.

(* three objects: the first one is handed over, twice referenced again by the pool's own reference, the second one is lent, the third one is an array of strings.
   The release of the first item makes the client give the second object once more. *)
Definition x_keep : list deed :=
  [DNew TObject; DNew TBytes; DNew TStrv;
   DAdd 0 TObject (Some 0); DAddRef 0 TBytes (Some 1); DAdd 0 TStrv (Some 2); DAddRef 0 TObject (Some 0); DAdd 0 TVariant None; DDrop TBytes 1;
   DPool 0 (ACall CDrain); DPool 0 AStep; DPool 0 AStep; DTake TBytes 1; DAdd 0 TBytes (Some 1); DPool 0 AReturn; DPool 0 AStep; DPool 0 AReturn;
   DPool 0 AStep; DPool 0 AReturn; DPool 0 AStep; DPool 0 AReturn; DPool 0 AStep; DPool 0 AStep; DPool 0 AStep; DPool 0 AReturn; DPool 0 AStep; DPool 0 AStep; DPool 0 AStep; DPool 0 AStep]%nat.
Definition x_kstate : keep := match krun (kstart (start_new 1)) x_keep with Ok k => k | Fail _ => kstart (start_new 1) end.
Definition knewb (o : nat) (y : type) (l : list kevent) : bool := existsb (fun e => match e with KNew i z => Nat.eqb i o && type_eqb z y | _ => false end) l.
Definition sensibleb (k : keep) (x : deed) : bool :=
  match x with
  | DPool t a => carefulb (k_pool k) (t, a)
  | DNew _ => true
  | DTake y o => (1 <=? own o (k_log k) + given o (k_log k) - released o (k_log k)) && knewb o y (k_log k)
  | DDrop y o => (1 <=? own o (k_log k)) && knewb o y (k_log k)
  | DAdd t y p => match p with None => true | Some o => carefulb (k_pool k) (t, ACall (CAdd 0)) && ((1 <=? own o (k_log k)) && knewb o y (k_log k)) end
  | DAddRef t y p => match p with None => true | Some o => carefulb (k_pool k) (t, ACall (CAdd 0)) && ((1 <=? own o (k_log k) + given o (k_log k) - released o (k_log k)) && knewb o y (k_log k)) end
  end.
Definition khomeb (k : keep) (x : deed) : bool := match x with DPool t (ADispatch _) => Nat.eqb t 0 | _ => true end.
Fixpoint kallb (P : keep -> deed -> bool) (k : keep) (l : list deed) : bool :=
  match l with [] => true | x :: l => P k x && match kstep k x with Ok k => kallb P k l | Fail _ => true end end.
Lemma knew_dec o y l : knewb o y l = true -> In (KNew o y) l.
Proof.
  unfold knewb. intros H. apply existsb_exists in H. destruct H as (e & X & H). destruct e; try discriminate. apply andb_prop in H. destruct H as (H1 & H2). apply Nat.eqb_eq in H1. apply type_eqb_ok in H2. congruence.
Qed.
Lemma sensible_dec k x : sensibleb k x = true -> sensible k x.
Proof.
  destruct x as [t a|y|y o|y o|t y [o|]|t y [o|]]; cbn [sensibleb sensible]; intros H; auto.
  - apply careful_dec. auto.
  - apply andb_prop in H. destruct H as (H1 & H2). split; [lia|apply knew_dec; auto].
  - apply andb_prop in H. destruct H as (H1 & H2). split; [lia|apply knew_dec; auto].
  - apply andb_prop in H. destruct H as (H0 & H). apply andb_prop in H. destruct H as (H1 & H2). split; [apply careful_dec; auto|]. split; [lia|apply knew_dec; auto].
  - apply andb_prop in H. destruct H as (H0 & H). apply andb_prop in H. destruct H as (H1 & H2). split; [apply careful_dec; auto|]. split; [lia|apply knew_dec; auto].
Qed.
Lemma khome_dec k x : khomeb k x = true -> khome k x.
Proof. destruct x as [t a|y|y o|y o|t y p|t y p]; cbn; auto. destruct a; auto. apply Nat.eqb_eq. Qed.
Lemma kall_dec (P : keep -> deed -> Prop) Q : (forall k x, Q k x = true -> P k x) -> forall l k, kallb Q k l = true -> kall P k l.
Proof. intros H. induction l as [|a l IH]; intros k E; cbn in *; auto. apply andb_prop in E. destruct E as (E1 & E2). split; auto. destruct (kstep k a); auto. Qed.
Definition sensible_all := kall_dec sensible sensibleb sensible_dec.
Definition khome_all := kall_dec khome khomeb khome_dec.

(* ================= C91: objects given to a pool ================= *)
(* Nothing is used after it has been freed and no function is called with an object of a different type *)
Theorem C91_safe s0 l : starts s0 -> kall sensible (kstart s0) l -> exists k, krun (kstart s0) l = Ok k.
Proof. intros St A. destruct (krun_ok false l (kstart s0) (kstart_inv _ _ St) A) as (k & pl & E & _); [discriminate|]. eauto. Qed.
Print Assumptions C91_safe.

(* An object is there exactly as long as the client has a reference or the pool has not released it as often as it has been given.
   The pool never releases more than it has been given. *)
Theorem C91_alive s0 l k o y : starts s0 -> kall sensible (kstart s0) l -> krun (kstart s0) l = Ok k -> In (KNew o y) (k_log k) ->
  0 <= own o (k_log k) /\ 0 <= released o (k_log k) <= given o (k_log k) /\
  (living k o <-> 1 <= own o (k_log k) \/ released o (k_log k) < given o (k_log k)) /\
  forall b, nth_error (k_objs k) o = Some (Some b) -> o_refs b = own o (k_log k) + (given o (k_log k) - released o (k_log k)).
Proof.
  intros St A R N. destruct (kreach _ _ _ St A R) as ((I & _ & K) & _). pose proof (ki_own _ _ _ _ K o) as Ow. pose proof (dests_le (points (k_pairs k) o) _ (inv_good _ I)) as Le.
  rewrite <- (ki_given _ _ _ _ K), <- (ki_released _ _ _ _ K) in Le. assert (0 <= released o (k_log k)) by (rewrite (ki_released _ _ _ _ K); unfold count; lia).
  split; auto. split; [lia|]. pose proof (ki_new _ _ _ _ K _ _ N) as Lt. split.
  - unfold living. split.
    + intros (b & E). destruct (ki_live _ _ _ _ K _ _ E) as (_ & H1 & _). unfold held in H1. lia.
    + intros H1. destruct (nth_error (k_objs k) o) as [[b|]|] eqn:E; eauto.
      * pose proof (ki_gone _ _ _ _ K _ E) as H0. unfold held in H0. lia.
      * apply nth_error_None in E. lia.
  - intros b E. destruct (ki_live _ _ _ _ K _ _ E) as (H1 & _). unfold held in H1. lia.
Qed.
Print Assumptions C91_alive.

(* An object is released with the function for its type *)
Theorem C91_function s0 l k f o y : starts s0 -> kall sensible (kstart s0) l -> krun (kstart s0) l = Ok k -> In (KRelease f o) (k_log k) -> In (KNew o y) (k_log k) -> expects f = y.
Proof.
  intros St A R X N. destruct (krun_ok false l (kstart s0) (kstart_inv _ _ St) A) as (k' & pl & E & (_ & _ & K) & _); [discriminate|]. rewrite R in E. injection E as <-.
  apply (ki_type _ _ _ _ K o); auto. clear pl.
  assert (G : forall l k k', (forall f o, In (KRelease f o) (k_log k) -> In (f, o) (k_pairs k)) -> krun k l = Ok k' -> forall f o, In (KRelease f o) (k_log k') -> In (f, o) (k_pairs k')).
  { clear. assert (Un : forall m f o m' ev, unref_obj m f o = Ok (m', ev) -> forall g i, ~ In (KRelease g i) ev).
    { unfold unref_obj. intros m f o m' ev. destruct (obj_at m o) as [b|]; cbn [bind]; [|discriminate]. destruct (type_eqb _ _); [|discriminate]. destruct (_ =? 0); intros E; injection E as <- <-; intros g i; [intros [X|[]]; discriminate|intros []]. }
    assert (Oe : forall l k k', (forall f o, In (KRelease f o) (k_log k) -> In (f, o) (k_pairs k)) -> on_events k l = Ok k' -> forall f o, In (KRelease f o) (k_log k') -> In (f, o) (k_pairs k')).
    { induction l as [|e l IH]; intros k k' H E; cbn [on_events] in E; [injection E as <-; auto|]. destruct (on_event k e) as [k1|] eqn:E1; cbn [bind] in E; [|discriminate]. apply (IH k1 k'); auto. clear IH E. intros f o.
      unfold on_event in E1. destruct e; try (injection E1 as <-; apply H). destruct k0; try (injection E1 as <-; apply H). destruct (nth_error (k_pairs k) (Z.to_nat data)) as [(g & j)|] eqn:En; [|discriminate].
      destruct (unref_obj (k_objs k) (expects g) j) as [(m & ev)|] eqn:Eu; cbn [bind] in E1; [|discriminate]. injection E1 as <-. cbn [k_log k_pairs]. rewrite in_app_iff. cbn [In]. intros [X|[X|X]]; [destruct (Un _ _ _ _ _ Eu _ _ X)| |auto].
      injection X as <- <-. eapply nth_error_In; eauto. }
    assert (Ps : forall k x k', (forall f o, In (KRelease f o) (k_log k) -> In (f, o) (k_pairs k)) -> pool_step k x = Ok k' -> forall f o, In (KRelease f o) (k_log k') -> In (f, o) (k_pairs k')).
    { intros k x k' H E. unfold pool_step in E. destruct (step (k_pool k) x) as [s|]; cbn [bind] in E; [|discriminate]. eapply Oe; [|exact E]. exact H. }
    assert (Ap : forall k t y p mo k' r, (forall f o, In (KRelease f o) (k_log k) -> In (f, o) (k_pairs k)) -> add_plain k t y p mo = Ok (k', r) -> forall f o, In (KRelease f o) (k_log k') -> In (f, o) (k_pairs k')).
    { intros k t y p mo k' r H E. unfold add_plain in E. destruct p as [o|]; [|injection E as <- <-; auto]. match type of E with (do _ <- ?x; _) = _ => destruct x as [u|] end; cbn [bind] in E; [|discriminate].
      match type of E with (do k <- ?x; _) = _ => destruct x as [k1|] eqn:E1 end; cbn [bind] in E; [|discriminate]. injection E as <- _. eapply Ps; [|exact E1]. cbn. intros f i [X|X]; [discriminate|]. apply in_app_iff. auto. }
    induction l as [|x l IH]; intros k k' H E; cbn [krun] in E; [injection E as <-; auto|]. destruct (kstep k x) as [k1|] eqn:E1; cbn [bind] in E; [|discriminate]. apply (IH k1 k'); auto. clear IH E. intros f o.
    assert (Ar : forall y t p, (if running (k_pool k) t then do (k, _) <- add_ref k t y p; Ok k else Ok k) = Ok k1 -> In (KRelease f o) (k_log k1) -> In (f, o) (k_pairs k1)).
    { intros y t p E. destruct (running (k_pool k) t); [|injection E as <-; auto]. unfold add_ref in E. destruct p as [i|]; [|injection E as <-; auto]. destruct (take (k_objs k) y i) as [m|]; cbn [bind] in E; [|discriminate].
      match type of E with (do (_, _) <- ?x; _) = _ => destruct x as [(k2 & r)|] eqn:E2 end; cbn [bind] in E; [|discriminate]. injection E as <-. eapply Ap; [|exact E2]. exact H. }
    destruct x as [t a|y|y i|y i|t y p|t y p]; cbn [kstep] in E1.
    - destruct (is_add a); [injection E1 as <-; apply H|]. eapply Ps; eauto.
    - injection E1 as <-. cbn. intros [X|X]; [discriminate|auto].
    - destruct y; try (injection E1 as <-; apply H); (destruct (take _ _ i) as [m|]; cbn [bind] in E1; [|discriminate]; injection E1 as <-; cbn; intros [X|X]; [discriminate|auto]).
    - destruct (unref_obj _ _ i) as [(m & ev)|] eqn:Eu; cbn [bind] in E1; [|discriminate]. injection E1 as <-. cbn [k_log k_pairs]. rewrite in_app_iff. cbn [In]. intros [X|[X|X]]; [destruct (Un _ _ _ _ _ Eu _ _ X)|discriminate|auto].
    - destruct (running (k_pool k) t); [|injection E1 as <-; apply H]. match type of E1 with (do (_, _) <- ?x; _) = _ => destruct x as [(k2 & r)|] eqn:E2 end; cbn [bind] in E1; [|discriminate]. injection E1 as <-. eapply Ap; eauto.
    - destruct y; try (injection E1 as <-; apply H); eapply Ar; eauto. }
  apply (ki_pairs _ _ _ _ K). refine (G l (kstart s0) k _ R f o X). intros g i [].
Qed.
Print Assumptions C91_function.

(* When nothing is in progress and nothing waits in the pool every object has been released as often as it was given *)
Theorem C91_all s0 l k : starts s0 -> kall sensible (kstart s0) l -> krun (kstart s0) l = Ok k -> calm (k_pool k) -> waiting (s_trace (k_pool k)) = [] -> forall o, released o (k_log k) = given o (k_log k).
Proof. intros St A R Cm W. destruct (kreach _ _ _ St A R) as ((I & _ & K) & _). apply (done_released _ _ _ _ K (inv_good _ I)). apply quiet_done; auto. Qed.
Print Assumptions C91_all.

(* The same when a drain which is not nested in another one has just returned, and when the pool is gone *)
Theorem C91_drained s0 l k post t w pre : starts s0 -> kall sensible (kstart s0) l -> krun (kstart s0) l = Ok k -> s_trace (k_pool k) = post ++ EDrained t w :: pre -> (forall i d y, ~ In (EAdd i d y) post) ->
  (forall u, batches u pre = []) -> forall o, released o (k_log k) = given o (k_log k).
Proof.
  intros St A R Et Np Nb. destruct (kreach _ _ _ St A R) as ((I & _ & K) & pl & Rp & C). apply (done_released _ _ _ _ K (inv_good _ I)).
  intros i Ai. rewrite Et in Ai |- *. assert (Ap : added i pre). { destruct Ai as (d & y & X). exists d, y. apply in_app_iff in X. destruct X as [X|[X|X]]; [destruct (Np _ _ _ X)|discriminate|auto]. }
  pose proof (C58_drained _ _ _ _ _ _ _ St C Rp Et Nb i Ap) as D. apply destroyed_of in D. destruct D as (u & d & y & X). exists u, d, y. apply in_app_iff. cbn. auto.
Qed.
Print Assumptions C91_drained.
Theorem C91_gone s0 l k : starts s0 -> kall sensible (kstart s0) l -> krun (kstart s0) l = Ok k -> s_pool (k_pool k) = None -> forall o, released o (k_log k) = given o (k_log k).
Proof.
  intros St A R Np. destruct (kreach _ _ _ St A R) as ((I & _ & K) & pl & Rp & C). apply (done_released _ _ _ _ K (inv_good _ I)). intros i Ai. apply destroyed_of. eapply C58_gone; eauto.
Qed.
Print Assumptions C91_gone.

(* Objects waiting in the pool are released by the main loop: when it has called the source, and the destructors have done nothing
   in particular, everything which the client does not own is freed *)
Definition deeds (l : list (nat * action)) : list deed := map (fun x => DPool (fst x) (snd x)) l.
Lemma passive_run l : forallb passive l = true -> forall k s, KInv true k -> run (k_pool k) l = Ok s -> exists k', krun k (deeds l) = Ok k' /\ k_pool k' = s /\ KInv true k' /\ (forall o, own o (k_log k') = own o (k_log k)) /\ (forall o, given o (k_log k') = given o (k_log k)) /\
  (forall o y, In (KNew o y) (k_log k) -> In (KNew o y) (k_log k')).
Proof.
  induction l as [|(t & a) l IH]; cbn [forallb run]; intros P k s K R. { injection R as <-. exists k. split; [reflexivity|]. split; [reflexivity|]. split; [exact K|]. split; [auto|]. split; auto. }
  apply andb_prop in P. destruct P as (P1 & P2). assert (Na : is_add a = false) by (destruct t, a; try discriminate; auto).
  pose proof K as (I & Sn & KK). assert (C : careful (k_pool k) (t, a)) by (destruct t, a; try discriminate; split; exact Logic.I). assert (H : home (k_pool k) (t, a)) by (destruct t, a; try discriminate; exact Logic.I).
  destruct (pool_step_ok true k t a K Na C (fun _ => H)) as (s1 & m & lg & E & E' & K'). rewrite E in R. cbn [bind] in R.
  assert (Keeps : (forall o, own o lg = own o (k_log k)) /\ (forall o, given o lg = given o (k_log k)) /\ forall o y, In (KNew o y) (k_log k) -> In (KNew o y) lg).
  { unfold pool_step in E'. rewrite E in E'. cbn [bind] in E'. destruct (step_grows _ _ _ _ Na E) as (evs & Et & Ne). rewrite Et, news in E'. destruct K' as (I' & _ & _). pose proof (inv_good _ I') as G. cbn in G. rewrite Et in G.
    destruct (on_events_ok s1 (k_pairs k) (rev evs) (k_objs k) (k_log k) (s_trace (k_pool k)) KK) as (m1 & lg1 & E1 & _ & O1 & G1 & W1); [rewrite rev_involutive; auto|apply forallb_rev; auto|].
    rewrite E' in E1. injection E1 as -> ->. split; auto. split; auto. intros o y. apply W1. }
  destruct (IH P2 _ s K' R) as (k' & E2 & Ek & K2 & O2 & G2 & W2). exists k'. cbn [deeds map krun kstep fst snd]. rewrite Na, E'. cbn [bind]. split; auto. split; auto. split; auto. cbn in O2, G2, W2. destruct Keeps as (O1 & G1 & W1).
  split; [intros o; rewrite O2; auto|]. split; [intros o; rewrite G2; auto|]. auto.
Qed.
Theorem C91_pass s0 l k : starts s0 -> kall sensible (kstart s0) l -> kall khome (kstart s0) l -> krun (kstart s0) l = Ok k -> calm (k_pool k) -> waiting (s_trace (k_pool k)) <> [] ->
  exists sid pass k', In sid (scheduled (s_trace (k_pool k))) /\ forallb passive pass = true /\ krun k (deeds ((0%nat, ADispatch sid) :: pass)) = Ok k' /\
    (forall o, released o (k_log k') = given o (k_log k')) /\ (forall o, own o (k_log k') = own o (k_log k)) /\ forall o y, In (KNew o y) (k_log k) -> (living k' o <-> 1 <= own o (k_log k)).
Proof.
  intros St A H R Cm W. destruct (khomereach _ _ _ St A H R) as (K & pl & Rp & C & Hh). destruct (C59_pass _ _ _ St C Hh Rp Cm W) as (sid & pass & s' & Sc & Pp & Rs & W' & Cm' & D).
  exists sid, pass. cbn [run] in Rs. destruct (step (k_pool k) (0%nat, ADispatch sid)) as [s1|] eqn:E; cbn [bind] in Rs; [|discriminate].
  pose proof K as (I & Sn & KK). destruct (pool_step_ok true k 0 (ADispatch sid) K eq_refl) as (s2 & m & lg & E2 & E' & K'); [split; exact Logic.I|reflexivity|]. rewrite E in E2. injection E2 as <-.
  assert (Keeps : (forall o, own o lg = own o (k_log k)) /\ forall o y, In (KNew o y) (k_log k) -> In (KNew o y) lg).
  { unfold pool_step in E'. rewrite E in E'. cbn [bind] in E'. destruct (step_grows _ _ (ADispatch sid) _ eq_refl E) as (evs & Et & Ne). rewrite Et, news in E'. destruct K' as (I' & _ & _). pose proof (inv_good _ I') as G. cbn in G. rewrite Et in G.
    destruct (on_events_ok s1 (k_pairs k) (rev evs) (k_objs k) (k_log k) (s_trace (k_pool k)) KK) as (m1 & lg1 & E1 & _ & O1 & G1 & W1); [rewrite rev_involutive; auto|apply forallb_rev; auto|].
    rewrite E' in E1. injection E1 as -> ->. split; auto. intros o y. apply W1. }
  destruct Keeps as (O1 & W1). destruct (passive_run pass Pp _ s' K' Rs) as (k' & E3 & Ek & K3 & O3 & _ & W3). cbn in O3, W3.
  assert (Rk : krun k (deeds ((0%nat, ADispatch sid) :: pass)) = Ok k') by (cbn [deeds map krun kstep fst snd is_add]; rewrite E'; exact E3).
  exists k'. split; auto. split; auto. split; auto. destruct K3 as (I3 & _ & KK3).
  assert (Al : forall o, released o (k_log k') = given o (k_log k')).
  { apply (done_released _ _ _ _ KK3 (inv_good _ I3)). apply quiet_done; auto; rewrite Ek; auto. }
  split; auto. assert (Oo : forall o, own o (k_log k') = own o (k_log k)) by (intros o; rewrite O3; auto). split; auto. intros o y N. pose proof (W3 _ _ (W1 _ _ N)) as N'. unfold living. split.
  - intros (b & Eb). destruct (ki_live _ _ _ _ KK3 _ _ Eb) as (_ & H1 & _). unfold held in H1. rewrite Al, Oo in H1. lia.
  - intros H1. destruct (nth_error (k_objs k') o) as [[b|]|] eqn:Eo; eauto.
    + pose proof (ki_gone _ _ _ _ KK3 _ Eo) as H0. unfold held in H0. rewrite Al, Oo in H0. lia.
    + apply nth_error_None in Eo. pose proof (ki_new _ _ _ _ KK3 _ _ N'). lia.
Qed.
Print Assumptions C91_pass.

(* Each call puts one item into the pool. The plain functions take over a reference of the client, the _ref functions leave it to them. *)
Theorem C91_give s0 l k y o (more : bool) : starts s0 -> kall sensible (kstart s0) l -> krun (kstart s0) l = Ok k -> callable (k_pool k) -> let x := if more then DAddRef 0 y (Some o) else DAdd 0 y (Some o) in (more = true -> y <> TStrv) -> sensible k x ->
  exists k' i, kstep k x = Ok k' /\ waiting (s_trace (k_pool k')) = waiting (s_trace (k_pool k)) ++ [i] /\ own o (k_log k') = own o (k_log k) - (if more then 0 else 1) /\ given o (k_log k') = given o (k_log k) + 1 /\ released o (k_log k') = released o (k_log k) /\
    forall o', o' <> o -> own o' (k_log k') = own o' (k_log k) /\ given o' (k_log k') = given o' (k_log k) /\ released o' (k_log k') = released o' (k_log k).
Proof.
  intros St A R Ca x Ny Se. destruct (kreach _ _ _ St A R) as (K & _). pose proof K as (I & Sn & KK).
  assert (Ru : running (k_pool k) 0 = true) by (unfold callable in Ca; unfold running; destruct (nth_error (s_stacks (k_pool k)) 0) as [[|[] ?]|]; auto; contradiction).
  assert (C : careful (k_pool k) (0%nat, ACall (CAdd 0)) /\ 1 <= held o (k_log k) /\ In (KNew o y) (k_log k) /\ (more = false -> 1 <= own o (k_log k))).
  { destruct more; destruct Se as (C & H & N); (split; [exact C|]).
    - split; [exact H|]. split; [exact N|]. discriminate.
    - split; [|split; [exact N|intros _; exact H]]. unfold held. rewrite (ki_given _ _ _ _ KK), (ki_released _ _ _ _ KK). pose proof (dests_le (points (k_pairs k) o) _ (inv_good _ I)). lia. }
  destruct C as (C & H & N & Ho). destruct (take_ok _ _ _ _ _ _ KK H N) as (b & Eb & Ty & Et). destruct k as [p0 m0 pairs lg]. cbn [k_pool k_objs k_pairs k_log] in *.
  destruct (plain_ok _ (Keep p0 m0 pairs lg) 0 y o b more m0 K Ru C Eb Ty Ho) as (s & E & Ea & _). cbn [k_pool k_objs k_pairs k_log] in *. destruct (step_adds _ _ _ _ Ru E) as (a & evs & Tr & Ev).
  assert (Es : kstep (Keep p0 m0 pairs lg) x = Ok (Keep s (if more then upd m0 o (Some (Obj y (o_refs b + 1))) else m0) (pairs ++ [(func_of y, o)]) (KGive o more :: lg))).
  { unfold x. destruct more; cbn [kstep k_pool]; rewrite Ru; [|rewrite Ea; reflexivity]. unfold add_ref. cbn [k_pool k_objs k_pairs k_log]. rewrite Et. cbn [bind]. rewrite Ea. cbn [bind]. specialize (Ny eq_refl). destruct y; congruence. }
  eexists _, a. split; [exact Es|]. cbn [k_pool k_log]. split; [rewrite Tr; destruct Ev as [->|(i & ->)]; reflexivity|]. cbn [own given released]. rewrite Nat.eqb_refl. split; [destruct more; lia|]. split; [lia|]. split; [lia|].
  intros o' Ne. destruct (Nat.eqb_spec o o'); [congruence|]. destruct more; lia.
Qed.
Print Assumptions C91_give.

(* Inside the callback for the first item, the client hands over a reference which it took for itself, and then lends one *)
Definition x_give : keep := Eval vm_compute in match krun (kstart (start_new 1)) (firstn 13 x_keep) with Ok k => k | Fail _ => kstart (start_new 1) end.
Example C91_example_give : kall sensible (kstart (start_new 1)) (firstn 13 x_keep) /\ krun (kstart (start_new 1)) (firstn 13 x_keep) = Ok x_give /\ callable (k_pool x_give) /\
  sensible x_give (DAdd 0 TBytes (Some 1%nat)) /\ sensible x_give (DAddRef 0 TBytes (Some 1%nat)) /\ own 1 (k_log x_give) = 1 /\ given 1 (k_log x_give) = 1.
Proof.
  split; [apply sensible_all; vm_compute; reflexivity|]. split; [vm_compute; reflexivity|]. split; [exact Logic.I|]. split; [apply sensible_dec; vm_compute; reflexivity|]. split; [apply sensible_dec; vm_compute; reflexivity|]. split; reflexivity.
Qed.

(* The functions return the pointer, and NULL changes nothing *)
Theorem C91_returns k t y p k' r : add_plain k t y p false = Ok (k', r) \/ add_ref k t y p = Ok (k', r) -> r = p /\ (p = None -> k' = k).
Proof.
  assert (Pl : forall k mo, add_plain k t y p mo = Ok (k', r) -> r = p /\ (p = None -> k' = k)).
  { intros k1 mo. unfold add_plain. destruct p as [o|]; [|intros E; injection E as <- <-; auto]. match goal with |- (do _ <- ?x; _) = _ -> _ => destruct x end; cbn [bind]; [|discriminate].
    match goal with |- (do k <- ?x; _) = _ -> _ => destruct x end; cbn [bind]; [|discriminate]. intros E. injection E as _ <-. split; [auto|discriminate]. }
  intros [E|E]; [apply (Pl k false); auto|]. unfold add_ref in E. destruct p as [o|]; [|injection E as <- <-; auto]. destruct (take (k_objs k) y o); cbn [bind] in E; [|discriminate]. apply Pl in E. split; [apply E|discriminate].
Qed.
Print Assumptions C91_returns.
Example C91_example_returns : exists k, add_ref (Keep (start_new 0) [Some (Obj TArray 1)] [] [KNew 0 TArray]) 0 TArray (Some 0%nat) = Ok (k, Some 0%nat) /\ k_objs k = [Some (Obj TArray 2)].
Proof. eexists. split; vm_compute; reflexivity. Qed.

Example C91_example : starts (start_new 1) /\ kall sensible (kstart (start_new 1)) x_keep /\ kall khome (kstart (start_new 1)) x_keep /\ krun (kstart (start_new 1)) x_keep = Ok x_kstate /\
  calm (k_pool x_kstate) /\ waiting (s_trace (k_pool x_kstate)) = [] /\ k_objs x_kstate = [None; None; None] /\
  filter (fun e => match e with KRelease _ _ | KFree _ => true | _ => false end) (k_log x_kstate) =
    [KFree 1; KRelease FBytesUnref 1; KFree 0; KRelease FObjectUnref 0; KFree 2; KRelease FStrfree 2; KRelease FBytesUnref 1; KRelease FObjectUnref 0]%nat.
Proof.
  split; [exists 1%nat; auto|]. split; [apply sensible_all; vm_compute; reflexivity|]. split; [apply khome_all; vm_compute; reflexivity|]. split; [vm_compute; reflexivity|]. split; [vm_compute; repeat constructor|]. split; [vm_compute; reflexivity|]. split; vm_compute; reflexivity.
Qed.
(* objects waiting for the main loop; one of them still belongs to the client *)
Example C91_example_pass : exists k, kall sensible (kstart (start_new 0)) (firstn 8 x_keep) /\ kall khome (kstart (start_new 0)) (firstn 8 x_keep) /\ krun (kstart (start_new 0)) (firstn 8 x_keep) = Ok k /\
  calm (k_pool k) /\ waiting (s_trace (k_pool k)) = [0; 1; 2; 3]%nat /\ map (fun o => own o (k_log k)) [0; 1; 2]%nat = [0; 1; 0] /\ k_objs k = [Some (Obj TObject 2); Some (Obj TBytes 2); Some (Obj TStrv 1)].
Proof.
  eexists. split; [apply sensible_all; vm_compute; reflexivity|]. split; [apply khome_all; vm_compute; reflexivity|]. split; [vm_compute; reflexivity|]. split; [vm_compute; repeat constructor|]. split; [vm_compute; reflexivity|]. split; vm_compute; reflexivity.
Qed.
(* the pool has gone, and it has just been drained *)
Example C91_example_gone : exists k, kall sensible (kstart (start_new 0)) [DNew TVariant; DAdd 0 TVariant (Some 0); DPool 0 (ACall CDestroy); DPool 0 AStep; DPool 0 AStep; DPool 0 AReturn; DPool 0 AStep; DPool 0 AStep; DPool 0 AStep; DPool 0 AStep; DPool 0 AStep]%nat /\
  krun (kstart (start_new 0)) [DNew TVariant; DAdd 0 TVariant (Some 0); DPool 0 (ACall CDestroy); DPool 0 AStep; DPool 0 AStep; DPool 0 AReturn; DPool 0 AStep; DPool 0 AStep; DPool 0 AStep; DPool 0 AStep; DPool 0 AStep]%nat = Ok k /\
  s_pool (k_pool k) = None /\ k_objs k = [None] /\ given 0 (k_log k) = 1.
Proof. eexists. split; [apply sensible_all; vm_compute; reflexivity|]. split; [vm_compute; reflexivity|]. split; [vm_compute; reflexivity|]. split; vm_compute; reflexivity. Qed.
