(* Objects given to a pool: the references add up *)
From Verif Require Import Base IdlePoolModel IdlePoolSpec IdlePoolProofs IdlePoolInv IdlePoolStep IdlePoolSane IdlePoolCare KeepModel KeepSpec.

(* ---------------- what a step of the pool adds to its trace ---------------- *)
Definition no_add (e : event) : bool := match e with EAdd _ _ _ => false | _ => true end.
Definition grows (s s' : state) : Prop := exists evs, s_trace s' = evs ++ s_trace s /\ forallb no_add evs = true.
Lemma grows_by evs s s' : s_trace s' = evs ++ s_trace s -> forallb no_add evs = true -> grows s s'.
Proof. unfold grows. eauto. Qed.
Lemma grows_trans s1 s2 s3 : grows s1 s2 -> grows s2 s3 -> grows s1 s3.
Proof. intros (a & E1 & A1) (b & E2 & A2). apply (grows_by (b ++ a)); [rewrite E2, E1, app_assoc; auto|rewrite forallb_app, A1, A2; auto]. Qed.
Lemma drop_grows s t k s' : drop s t k = Ok s' -> grows s s'.
Proof.
  unfold drop, the_pool. destruct (s_pool s) as [q|]; cbn [bind]; [|discriminate]. destruct (p_refs q - 1 =? 0); intros E; injection E as <-.
  - apply (grows_by [EZero]); auto. destruct (p_shared q); reflexivity.
  - apply (grows_by []); auto.
Qed.
Ltac gr evs := apply (grows_by evs); [reflexivity|reflexivity].
Lemma step_grows s t a s' : is_add a = false -> step s (t, a) = Ok s' -> grows s s'.
Proof.
  intros Na. unfold step. destruct (nth_error (s_stacks s) t) as [k0|] eqn:E; [|intros X; injection X as <-; gr (@nil event)].
  assert (Same : Ok s = Ok s' -> grows s s') by (intros X; injection X as <-; gr (@nil event)).
  assert (End : forall w k, drain_end s t w k = Ok s' -> grows s s').
  { intros w k. unfold drain_end. destruct w as [| |sid|].
    - intros X. injection X as <-. gr [EDrained t WClient].
    - intros X. apply drop_grows in X. refine (grows_trans _ _ _ _ X). gr [EDrained t WDestroy].
    - unfold idle_end. intros X. apply drop_grows in X. refine (grows_trans _ _ _ _ X). gr [EIdleEnd t sid; EDrained t (WIdle sid)].
    - destruct (s_pool (emit s (EDrained t WFinal))) as [q|]; [|discriminate]. intros X. injection X as <-. gr [EGone; EDrained t WFinal]. }
  assert (Call : forall c, a = ACall c -> do_call s t c k0 = Ok s' -> grows s s').
  { intros c ->. destruct c as [data| | | | ]; cbn [do_call].
    - discriminate.
    - unfold the_pool. destruct (s_pool s) as [q|]; cbn [bind]; [|discriminate]. intros X. injection X as <-. gr [ERef].
    - intros X. apply drop_grows in X. refine (grows_trans _ _ _ _ X). gr [EUnref].
    - intros X. injection X as <-. gr [EDrain t].
    - intros X. injection X as <-. gr [EKill]. }
  assert (Disp : forall sid, dispatch s t sid k0 = Ok s' -> grows s s').
  { intros sid. unfold dispatch, the_pool. destruct (existsb _ (s_srcs s)); [|apply Same]. cbn [s_pool emit set_srcs]. destruct (s_pool s) as [q|]; cbn [bind]; [|discriminate]. intros X. injection X as <-. gr [EIdle t sid]. }
  assert (Get : Ok (match s_var s with VNull => set_var s VOther | _ => s end) = Ok s' -> grows s s').
  { intros X. injection X as <-. destruct (s_var s); gr (@nil event). }
  assert (Ot : Ok (match s_var s with VOther => set_var s VNull | _ => s end) = Ok s' -> grows s s').
  { intros X. injection X as <-. destruct (s_var s); gr (@nil event). }
  assert (Next : forall s1 items item w k, grows s s1 -> next_item s1 t items item w k = Ok s' -> grows s s').
  { intros s1 items item w k P. unfold next_item. destruct (get _ item) as [it|]; cbn [bind]; [|discriminate]. intros X. injection X as <-. exact P. }
  destruct k0 as [|f k]; [destruct a; solve [auto|apply Call; auto|apply Disp]|]. destruct f as [w|items item w|items item w|items item w|id w|w|sid].
  - destruct a; auto. unfold loop, the_pool. destruct (s_pool s) as [q|]; cbn [bind]; [|discriminate]. destruct (p_first q) as [b|]; [intros X; injection X as <-; gr [EBatch t]|].
    destruct (Nat.eqb (p_idle q) 0); [apply End|]. intros X. injection X as <-. gr (@nil event).
  - destruct a; auto. unfold batch. destruct item as [b|].
    + destruct (get _ b) as [it|]; cbn [bind]; [|discriminate]. destruct (it_kind it); [intros X; injection X as <-; gr [EDestroy t b (it_data it) KClient]|].
      intros X. apply drop_grows in X. refine (grows_trans _ _ _ _ X). gr [EDestroy t b (it_data it) KSelf].
    + destruct (free_chain _ _ _) as [h'|]; cbn [bind]; [|discriminate]. intros X. injection X as <-. gr [EBatchEnd t].
  - destruct a; try solve [auto|apply Call; auto|apply Disp]. intros X. eapply Next; [|exact X]. gr [EReturn t].
  - destruct a; auto. intros X. eapply Next; [|exact X]. gr (@nil event).
  - destruct a; auto. unfold remove. destruct (find _ (s_srcs s)) as [(i & [|])|].
    + intros X. injection X as <-. gr (@nil event).
    + intros X. apply drop_grows in X. refine (grows_trans _ _ _ _ X). gr [EUnsource id].
    + intros X. injection X as <-. gr [EBadRemove id].
  - destruct a; auto. apply End.
  - destruct a; auto. unfold idle_end. intros X. apply drop_grows in X. refine (grows_trans _ _ _ _ X). gr [EIdleEnd t sid].
Qed.
Lemma step_adds s t d s' : running s t = true -> step s (t, ACall (CAdd d)) = Ok s' ->
  exists a evs, s_trace s' = evs ++ EAdd a d KClient :: s_trace s /\ (evs = [] \/ exists i, evs = [ESource i]).
Proof.
  intros Ru. assert (A : forall k, do_call s t (CAdd d) k = Ok s' -> exists a evs, s_trace s' = evs ++ EAdd a d KClient :: s_trace s /\ (evs = [] \/ exists i, evs = [ESource i])).
  { intros k. cbn [do_call]. unfold add, the_pool. cbn [s_pool emit set_heap]. destruct (s_pool s) as [q|]; cbn [bind]; [|discriminate]. destruct (p_last q) as [l|].
    - destruct (get _ l) as [it|]; cbn [bind]; [|discriminate]. destruct (put _ l _) as [h1|]; cbn [bind]; [|discriminate].
      destruct (Nat.eqb _ 0); cbn [attach]; intros X; injection X as <-; exists (length (s_heap s)); [exists [ESource (s_next s)]|exists []]; eauto.
    - cbn [bind]; match goal with |- context [Nat.eqb ?x 0] => destruct (Nat.eqb x 0) end; cbn [attach]; intros X; injection X as <-; exists (length (s_heap s)); [exists [ESource (s_next s)]|exists []]; eauto. }
  unfold running in Ru. unfold step. destruct (nth_error (s_stacks s) t) as [[|[w|items item w|items item w|items item w|id w|w|sid] k]|]; try discriminate; apply A.
Qed.

(* ---------------- counting ---------------- *)
Fixpoint addeds (tr : list event) : list (nat * Z) :=
  match tr with [] => [] | EAdd i d KClient :: tr => (i, d) :: addeds tr | _ :: tr => addeds tr end.
Fixpoint dests (tr : list event) : list (nat * Z) :=
  match tr with [] => [] | EDestroy _ i d KClient :: tr => (i, d) :: dests tr | _ :: tr => dests tr end.
Definition count (P : Z -> bool) (l : list (nat * Z)) : Z := Z.of_nat (length (filter (fun x => P (snd x)) l)).
Lemma count_cons P i d l : count P ((i, d) :: l) = count P l + (if P d then 1 else 0).
Proof. unfold count. cbn [filter snd]. destruct (P d); cbn [length]; lia. Qed.
Lemma in_addeds tr i d : In (i, d) (addeds tr) <-> In (EAdd i d KClient) tr.
Proof.
  induction tr as [|e tr IH]; [tauto|]. cbn [In]. rewrite <- IH. destruct e; cbn [addeds]; try (split; [auto|intros [X|X]; [discriminate|auto]]).
  destruct k; cbn [In]; [split; (intros [X|X]; [left; congruence|auto])|]. split; [auto|intros [X|X]; [discriminate|auto]].
Qed.
Lemma in_dests tr i d : In (i, d) (dests tr) <-> exists t, In (EDestroy t i d KClient) tr.
Proof.
  induction tr as [|e tr IH]; [cbn; firstorder|].
  assert (Other : (forall t, e <> EDestroy t i d KClient) -> (exists t, In (EDestroy t i d KClient) tr) <-> exists t, In (EDestroy t i d KClient) (e :: tr)).
  { intros N. split; intros (t & X); exists t; cbn in *; auto. destruct X as [X|X]; auto. exfalso. apply (N t). auto. }
  destruct e; cbn [dests]; try (rewrite IH; apply Other; discriminate).
  destruct k; [|rewrite IH; apply Other; discriminate]. cbn [In]. rewrite IH. split.
  - intros [X|(u & X)]; [injection X as -> ->; exists t; auto|exists u; auto].
  - intros (u & [X|X]); [left; congruence|right; eauto].
Qed.
Lemma dests_nodup tr : good tr -> NoDup (dests tr).
Proof.
  induction tr as [|e tr IH]; intros G; [constructor|]. destruct G as (Lg & G). specialize (IH G). destruct e; auto. destruct k; auto. cbn. constructor; auto.
  intros X. apply in_dests in X. destruct X as (u & X). destruct Lg as (_ & _ & N). apply N. exists u, data, KClient. auto.
Qed.
Lemma dests_incl tr : good tr -> incl (dests tr) (addeds tr).
Proof.
  intros G (i & d) X. apply in_dests in X. destruct X as (t & X). apply in_addeds. apply in_split in X. destruct X as (a & b & ->).
  apply good_suffix in G. destruct G as ((_ & A & _) & _). apply in_app_iff. cbn. auto.
Qed.
Lemma filter_nodup {A} (p : A -> bool) l : NoDup l -> NoDup (filter p l).
Proof. intros H. apply NoDup_filter. auto. Qed.
Lemma dests_le P tr : good tr -> count P (dests tr) <= count P (addeds tr).
Proof.
  intros G. unfold count. apply Nat2Z.inj_le. apply NoDup_incl_length; [apply filter_nodup, dests_nodup; auto|].
  intros x X. apply filter_In in X. destruct X as (X & Px). apply filter_In. split; auto. apply dests_incl; auto.
Qed.
(* everything has been destroyed *)
Lemma addeds_nodup tr : good tr -> NoDup (addeds tr).
Proof.
  induction tr as [|e tr IH]; intros G; [constructor|]. destruct G as (Lg & G). specialize (IH G). destruct e; auto. destruct k; auto. cbn. constructor; auto.
  intros X. apply in_addeds in X. apply Lg. exists data, KClient. auto.
Qed.
Lemma dests_eq P tr : good tr -> (forall i, added i tr -> destroyed i tr) -> count P (dests tr) = count P (addeds tr).
Proof.
  intros G D. pose proof (dests_le P tr G). enough (count P (addeds tr) <= count P (dests tr)) by lia.
  unfold count. apply Nat2Z.inj_le. apply NoDup_incl_length; [apply filter_nodup, addeds_nodup; auto|].
  intros (i & d) X. apply filter_In in X. destruct X as (X & Px). apply filter_In. split; auto. apply in_addeds in X.
  destruct (D i) as (t & d' & k & Y); [exists d, KClient; auto|]. apply in_dests. exists t.
  pose proof Y as Y'. apply in_split in Y'. destruct Y' as (a & b & E). rewrite E in G. pose proof G as G0. apply good_suffix in G0. destruct G0 as ((_ & A & _) & _).
  assert (A' : In (EAdd i d' k) tr) by (rewrite E; apply in_app_iff; cbn; auto). rewrite <- E in G. destruct (add_unique _ _ _ _ _ _ G X A') as (-> & <-). auto.
Qed.
Lemma no_add_addeds evs tr : forallb no_add evs = true -> addeds (evs ++ tr) = addeds tr.
Proof. induction evs as [|e evs IH]; cbn; auto. intros H. apply andb_prop in H. destruct H as (H1 & H2). destruct e; try discriminate; auto. Qed.

(* ---------------- the invariant ---------------- *)
Definition held (o : nat) (l : list kevent) : Z := own o l + given o l - released o l.
Definition points (pairs : list (func * nat)) (o : nat) (d : Z) : bool :=
  match nth_error pairs (Z.to_nat d) with Some (_, i) => Nat.eqb i o | None => false end.
(* The objects, the pairs, what has happened to the objects and to the pool *)
Record KI (m : list (option obj)) (pairs : list (func * nat)) (lg : list kevent) (tr : list event) : Prop := {
  ki_given : forall o, given o lg = count (points pairs o) (addeds tr);
  ki_released : forall o, released o lg = count (points pairs o) (dests tr);
  ki_range : forall i d, In (i, d) (addeds tr) -> 0 <= d < len pairs;
  ki_pairs : forall f o, In (f, o) pairs -> In (KNew o (expects f)) lg;
  ki_own : forall o, 0 <= own o lg;
  ki_new : forall o y, In (KNew o y) lg -> (o < length m)%nat;
  ki_type : forall o y y', In (KNew o y) lg -> In (KNew o y') lg -> y = y';
  ki_live : forall o b, nth_error m o = Some (Some b) -> o_refs b = held o lg /\ 1 <= held o lg /\ In (KNew o (o_type b)) lg;
  ki_gone : forall o, nth_error m o = Some None -> held o lg = 0;
  ki_none : forall o, (length m <= o)%nat -> own o lg = 0 }.
Lemma points_more pairs p o d : 0 <= d < len pairs -> points (pairs ++ [p]) o d = points pairs o d.
Proof. intros R. unfold points. rewrite nth_error_app1; auto. unfold len in R. lia. Qed.
Lemma count_ext P Q l : (forall i d, In (i, d) l -> P d = Q d) -> count P l = count Q l.
Proof. induction l as [|(i & d) l IH]; intros H; auto. rewrite !count_cons, IH, (H i d); cbn; auto. intros j e X. apply (H j). cbn. auto. Qed.
Lemma type_eqb_ok a b : type_eqb a b = true <-> a = b.
Proof. destruct a, b; cbn; split; congruence. Qed.
Lemma own_given_app o ev l : own o (ev ++ l) = own o ev + own o l /\ given o (ev ++ l) = given o ev + given o l /\ released o (ev ++ l) = released o ev + released o l.
Proof.
  induction ev as [|e ev (A & B & C)]; cbn [app own given released]; [lia|]. destruct e as [i y|i|i|i mo|f i|i]; cbn [own given released]; rewrite ?A, ?B, ?C; repeat split; try lia.
  destruct mo; cbn; rewrite ?A; lia.
Qed.
(* dropping a reference which somebody has *)
Lemma unref_ok m pairs lg tr y o : KI m pairs lg tr -> 1 <= held o lg -> In (KNew o y) lg ->
  exists m' ev b, unref_obj m y o = Ok (m', ev) /\ nth_error m o = Some (Some b) /\ o_type b = y /\
    ((held o lg = 1 /\ m' = upd m o None /\ ev = [KFree o]) \/ (2 <= held o lg /\ m' = upd m o (Some (Obj (o_type b) (o_refs b - 1))) /\ ev = [])).
Proof.
  intros I H N. pose proof (ki_new _ _ _ _ I _ _ N) as Lt. destruct (nth_error m o) as [[b|]|] eqn:E.
  - destruct (ki_live _ _ _ _ I _ _ E) as (R & R1 & T). pose proof (ki_type _ _ _ _ I _ _ _ T N) as Ty. unfold unref_obj, obj_at. rewrite E. cbn [bind].
    assert (type_eqb (o_type b) y = true) as -> by (apply type_eqb_ok; auto). destruct (Z.eqb_spec (o_refs b - 1) 0).
    + eexists _, _, b. split; [reflexivity|]. split; auto. split; auto. left. split; [lia|auto].
    + eexists _, _, b. split; [reflexivity|]. split; auto. split; auto. right. split; [lia|auto].
  - rewrite (ki_gone _ _ _ _ I _ E) in H. lia.
  - apply nth_error_None in E. lia.
Qed.
(* the same in front of any event which counts as one reference less *)
Lemma unref_inv m pairs lg tr y o m' ev b e tr' : KI m pairs lg tr -> nth_error m o = Some (Some b) -> o_type b = y ->
  ((held o lg = 1 /\ m' = upd m o None /\ ev = [KFree o]) \/ (2 <= held o lg /\ m' = upd m o (Some (Obj (o_type b) (o_refs b - 1))) /\ ev = [])) ->
  (forall i, held i (e :: lg) = held i lg - if Nat.eqb o i then 1 else 0) -> (forall i z, e <> KNew i z) ->
  (forall i, 0 <= own i (e :: lg)) -> (forall i, (length m <= i)%nat -> own i (e :: lg) = 0) ->
  addeds tr' = addeds tr -> (forall i, given i (e :: lg) = given i lg) -> (forall i, released i (e :: lg) = count (points pairs i) (dests tr')) ->
  KI m' pairs (ev ++ e :: lg) tr'.
Proof.
  intros I Eb Ty C He Ne Ho Hn Ea Eg Er. assert (Lt : (o < length m)%nat) by (apply nth_error_Some; congruence).
  assert (Ev : forall i, own i (ev ++ e :: lg) = own i (e :: lg) /\ given i (ev ++ e :: lg) = given i (e :: lg) /\ released i (ev ++ e :: lg) = released i (e :: lg)).
  { intros i. destruct (own_given_app i ev (e :: lg)) as (A1 & A2 & A3). rewrite A1, A2, A3. destruct C as [(_ & _ & ->)|(_ & _ & ->)]; cbn [own given released]; repeat split; lia. }
  assert (Nw : forall i z, In (KNew i z) (ev ++ e :: lg) <-> In (KNew i z) lg).
  { intros i z. rewrite in_app_iff. cbn [In]. split; [|auto]. intros [X|[X|X]]; auto; [|exfalso; apply (Ne i z); auto]. destruct C as [(_ & _ & ->)|(_ & _ & ->)]; [destruct X as [X|[]]; discriminate|destruct X]. }
  assert (Lm : length m' = length m) by (destruct C as [(_ & -> & _)|(_ & -> & _)]; apply upd_length).
  assert (Hd : forall i, held i (ev ++ e :: lg) = held i lg - if Nat.eqb o i then 1 else 0).
  { intros i. destruct (Ev i) as (A & B & D). unfold held at 1. rewrite A, B, D. apply He. }
  constructor.
  - intros i. destruct (Ev i) as (_ & -> & _). rewrite Eg, Ea. apply (ki_given _ _ _ _ I).
  - intros i. destruct (Ev i) as (_ & _ & ->). apply Er.
  - rewrite Ea. apply (ki_range _ _ _ _ I).
  - intros g i X. apply Nw. apply (ki_pairs _ _ _ _ I). auto.
  - intros i. destruct (Ev i) as (-> & _ & _). apply Ho.
  - intros i z X. rewrite Lm. apply Nw in X. apply (ki_new _ _ _ _ I _ _ X).
  - intros i z z' X X'. apply Nw in X. apply Nw in X'. apply (ki_type _ _ _ _ I _ _ _ X X').
  - intros i c Ei. rewrite Hd. destruct (Nat.eqb_spec o i) as [<-|N].
    + destruct C as [(_ & -> & _)|(H2 & -> & _)]; rewrite nth_error_upd_eq in Ei by auto; [discriminate|]. injection Ei as <-. destruct (ki_live _ _ _ _ I _ _ Eb) as (R & R1 & T). cbn [o_refs o_type].
      split; [lia|]. split; [lia|]. apply Nw. auto.
    + assert (Ei' : nth_error m i = Some (Some c)) by (destruct C as [(_ & -> & _)|(H2 & -> & _)]; rewrite nth_error_upd_ne in Ei by auto; auto).
      destruct (ki_live _ _ _ _ I _ _ Ei') as (R & R1 & T). split; [lia|]. split; [lia|]. apply Nw. auto.
  - intros i Ei. rewrite Hd. destruct (Nat.eqb_spec o i) as [<-|N].
    + destruct C as [(H1 & -> & _)|(H2 & -> & _)]; rewrite nth_error_upd_eq in Ei by auto; [lia|discriminate].
    + assert (Ei' : nth_error m i = Some None) by (destruct C as [(_ & -> & _)|(H2 & -> & _)]; rewrite nth_error_upd_ne in Ei by auto; auto).
      rewrite (ki_gone _ _ _ _ I _ Ei'). lia.
  - intros i Li. rewrite Lm in Li. destruct (Ev i) as (-> & _ & _). apply Hn. auto.
Qed.

(* an event of the pool which is not an addition *)
Lemma on_event_ok s m pairs lg tr e : KI m pairs lg tr -> good (e :: tr) -> no_add e = true ->
  exists m' lg', on_event (Keep s m pairs lg) e = Ok (Keep s m' pairs lg') /\ KI m' pairs lg' (e :: tr) /\ (forall o, own o lg' = own o lg) /\ (forall o, given o lg' = given o lg) /\ (forall o y, In (KNew o y) lg <-> In (KNew o y) lg').
Proof.
  intros I G Na.
  assert (Same : addeds (e :: tr) = addeds tr -> dests (e :: tr) = dests tr -> on_event (Keep s m pairs lg) e = Ok (Keep s m pairs lg) ->
    exists m' lg', on_event (Keep s m pairs lg) e = Ok (Keep s m' pairs lg') /\ KI m' pairs lg' (e :: tr) /\ (forall o, own o lg' = own o lg) /\ (forall o, given o lg' = given o lg) /\ (forall o y, In (KNew o y) lg <-> In (KNew o y) lg')).
  { intros E1 E2 E3. exists m, lg. split; auto. split; [|tauto]. destruct I. constructor; rewrite ?E1, ?E2; auto. }
  destruct e; try discriminate; try (apply Same; reflexivity). destruct k; [|apply Same; reflexivity].
  pose proof (dests_incl _ G (i, data)) as Ia. cbn [dests addeds] in Ia. specialize (Ia (or_introl eq_refl)). pose proof (ki_range _ _ _ _ I _ _ Ia) as Rg.
  cbn [on_event k_pairs]. destruct (nth_error pairs (Z.to_nat data)) as [(f & o)|] eqn:Ep. 2:{ apply nth_error_None in Ep. unfold len in Rg. lia. }
  assert (Nw : In (KNew o (expects f)) lg) by (apply (ki_pairs _ _ _ _ I); eapply nth_error_In; eauto).
  assert (Pt : forall i', points pairs i' data = Nat.eqb o i') by (intros i'; unfold points; rewrite Ep; auto).
  assert (H1 : 1 <= held o lg).
  { unfold held. rewrite (ki_given _ _ _ _ I), (ki_released _ _ _ _ I). pose proof (dests_le (points pairs o) _ G) as D. cbn [dests addeds] in D. rewrite count_cons, Pt, Nat.eqb_refl in D. pose proof (ki_own _ _ _ _ I o). lia. }
  destruct (unref_ok _ _ _ _ _ _ I H1 Nw) as (m' & ev & b & E & Eb & Ty & C). cbn [k_objs]. rewrite E. cbn [bind k_pool k_log]. eexists _, _. split; [reflexivity|]. split.
  - eapply unref_inv; try eassumption; try reflexivity; try discriminate.
    + intros j. unfold held. cbn [own given released]. lia.
    + intros j. cbn. apply (ki_own _ _ _ _ I).
    + intros j Lj. cbn. apply (ki_none _ _ _ _ I). auto.
    + intros j. cbn [released dests]. rewrite count_cons, Pt, (ki_released _ _ _ _ I). reflexivity.
  - split; [|split].
    + intros j. destruct (own_given_app j ev (KRelease f o :: lg)) as (-> & _). destruct C as [(_ & _ & ->)|(_ & _ & ->)]; reflexivity.
    + intros j. destruct (own_given_app j ev (KRelease f o :: lg)) as (_ & -> & _). destruct C as [(_ & _ & ->)|(_ & _ & ->)]; reflexivity.
    + intros j y. rewrite in_app_iff. cbn [In]. split; [auto|]. intros [X|[X|X]]; [|discriminate|auto]. destruct C as [(_ & _ & ->)|(_ & _ & ->)]; [destruct X as [X|[]]; discriminate|destruct X].
Qed.
Lemma on_events_ok s pairs l : forall m lg tr, KI m pairs lg tr -> good (rev l ++ tr) -> forallb no_add l = true ->
  exists m' lg', on_events (Keep s m pairs lg) l = Ok (Keep s m' pairs lg') /\ KI m' pairs lg' (rev l ++ tr) /\ (forall o, own o lg' = own o lg) /\ (forall o, given o lg' = given o lg) /\ (forall o y, In (KNew o y) lg <-> In (KNew o y) lg').
Proof.
  induction l as [|e l IH]; intros m lg tr I G Na; cbn [on_events rev app]. { exists m, lg. split; auto. split; auto. split; [|split]; tauto. }
  cbn [rev] in G. rewrite <- app_assoc in G. cbn [app] in G. cbn [forallb] in Na. apply andb_prop in Na. destruct Na as (N1 & N2).
  destruct (on_event_ok s m pairs lg tr e I (good_suffix _ _ G) N1) as (m1 & lg1 & E1 & I1 & O1 & G1 & W1). rewrite E1. cbn [bind].
  destruct (IH m1 lg1 (e :: tr) I1 G N2) as (m2 & lg2 & E2 & I2 & O2 & G2 & W2). exists m2, lg2. split; auto. rewrite <- app_assoc. split; auto.
  split; [intros o; rewrite O2; auto|]. split; [intros o; rewrite G2; auto|]. intros o y. rewrite W1. auto.
Qed.
Lemma news {A} (evs tr : list A) : firstn (length (evs ++ tr) - length tr) (evs ++ tr) = evs.
Proof. rewrite app_length, Nat.add_sub. rewrite firstn_app, Nat.sub_diag, firstn_all. cbn. apply app_nil_r. Qed.
Lemma forallb_rev {A} (p : A -> bool) l : forallb p l = true -> forallb p (rev l) = true.
Proof. intros H. apply forallb_forall. intros x X. apply in_rev in X. rewrite forallb_forall in H. auto. Qed.

(* the whole invariant *)
Definition KInv (hm : bool) (k : keep) : Prop := inv (k_pool k) /\ sane hm (k_pool k) /\ KI (k_objs k) (k_pairs k) (k_log k) (s_trace (k_pool k)).
Lemma inv_good s : inv s -> good (s_trace s).
Proof. intros (P & I). exact (i_good _ _ _ _ _ I). Qed.

Lemma pool_step_ok hm k t a : KInv hm k -> is_add a = false -> careful (k_pool k) (t, a) -> (hm = true -> home (k_pool k) (t, a)) ->
  exists s m lg, step (k_pool k) (t, a) = Ok s /\ pool_step k (t, a) = Ok (Keep s m (k_pairs k) lg) /\ KInv hm (Keep s m (k_pairs k) lg).
Proof.
  intros (I & Sn & K) Na C H. destruct (step_sane hm _ _ I Sn C H) as (s & E & Sn'). destruct (step_fine _ (t, a) I) as [(s2 & E2 & I2)|(f & E2 & _)]; [|congruence]. rewrite E in E2. injection E2 as <-.
  destruct (step_grows _ _ _ _ Na E) as (evs & Et & Ne). unfold pool_step. rewrite E. cbn [bind]. rewrite Et, news.
  pose proof (inv_good _ I2) as G. rewrite Et in G.
  destruct (on_events_ok s (k_pairs k) (rev evs) (k_objs k) (k_log k) (s_trace (k_pool k)) K) as (m & lg & E1 & I1 & _); [rewrite rev_involutive; auto|apply forallb_rev; auto|].
  rewrite rev_involutive in I1. exists s, m, lg. split; auto. split; auto. split; auto. split; auto. cbn. rewrite Et. auto.
Qed.

Lemma take_ok m pairs lg tr y o : KI m pairs lg tr -> 1 <= held o lg -> In (KNew o y) lg -> exists b, nth_error m o = Some (Some b) /\ o_type b = y /\ take m y o = Ok (upd m o (Some (Obj y (o_refs b + 1)))).
Proof.
  intros I H N. pose proof (ki_new _ _ _ _ I _ _ N) as Lt. destruct (nth_error m o) as [[b|]|] eqn:E.
  - destruct (ki_live _ _ _ _ I _ _ E) as (R & R1 & T). pose proof (ki_type _ _ _ _ I _ _ _ T N) as Ty. exists b. split; auto. split; auto. unfold take, obj_at. rewrite E. cbn [bind].
    assert (type_eqb (o_type b) y = true) as -> by (apply type_eqb_ok; auto). rewrite Ty. auto.
  - rewrite (ki_gone _ _ _ _ I _ E) in H. lia.
  - apply nth_error_None in E. lia.
Qed.
(* one item more in the pool, with or without one more reference *)
Lemma give_inv m pairs lg tr y o b (more : bool) a evs : KI m pairs lg tr -> incl (dests tr) (addeds tr) -> nth_error m o = Some (Some b) -> o_type b = y -> (more = false -> 1 <= own o lg) ->
  (evs = [] \/ exists i, evs = [ESource i]) ->
  KI (if more then upd m o (Some (Obj y (o_refs b + 1))) else m) (pairs ++ [(func_of y, o)]) (KGive o more :: lg) (evs ++ EAdd a (Z.of_nat (length pairs)) KClient :: tr).
Proof.
  intros I Di Eb Ty Ho Ev. assert (Lt : (o < length m)%nat) by (apply nth_error_Some; congruence). destruct (ki_live _ _ _ _ I _ _ Eb) as (R & R1 & T).
  assert (Ea : addeds (evs ++ EAdd a (Z.of_nat (length pairs)) KClient :: tr) = (a, Z.of_nat (length pairs)) :: addeds tr) by (destruct Ev as [->|(i & ->)]; reflexivity).
  assert (Ed : dests (evs ++ EAdd a (Z.of_nat (length pairs)) KClient :: tr) = dests tr) by (destruct Ev as [->|(i & ->)]; reflexivity).
  assert (Rg : forall i d, In (i, d) (addeds tr) -> 0 <= d < len pairs) by apply (ki_range _ _ _ _ I).
  assert (Rd : forall o', count (points (pairs ++ [(func_of y, o)]) o') (addeds tr) = count (points pairs o') (addeds tr)).
  { intros o'. apply count_ext. intros i d X. apply points_more. eapply Rg; eauto. }
  assert (Lm : length (if more then upd m o (Some (Obj y (o_refs b + 1))) else m) = length m) by (destruct more; auto using upd_length).
  assert (Ow : forall i, own i (KGive o more :: lg) = own i lg - if more then 0 else if Nat.eqb o i then 1 else 0) by (intros i; destruct more; cbn [own]; lia).
  assert (Hd : forall i, held i (KGive o more :: lg) = held i lg + if more then if Nat.eqb o i then 1 else 0 else 0) by (intros i; unfold held; rewrite Ow; cbn [given released]; destruct more; lia).
  constructor.
  - intros i. rewrite Ea, count_cons, Rd. cbn [given]. rewrite (ki_given _ _ _ _ I). unfold points. rewrite Nat2Z.id, nth_error_app2, Nat.sub_diag by lia. reflexivity.
  - intros i. rewrite Ed. cbn [released]. rewrite (ki_released _ _ _ _ I). apply count_ext. intros j d X. symmetry. apply points_more.
    destruct (Rg j d) as (A & B); [apply Di; auto|lia].
  - intros i d. rewrite Ea. unfold len in *. rewrite app_length. cbn [length In]. intros [X|X]; [injection X as <- <-; lia|]. apply Rg in X. lia.
  - intros f i X. cbn [In]. right. apply in_app_iff in X. destruct X as [X|[X|[]]]; [apply (ki_pairs _ _ _ _ I); auto|]. injection X as <- <-. rewrite <- Ty in *. destruct (o_type b); auto.
  - intros i. rewrite Ow. pose proof (ki_own _ _ _ _ I i). destruct more; [lia|]. destruct (Nat.eqb_spec o i) as [<-|]; [|lia]. specialize (Ho eq_refl). lia.
  - intros i z [X|X]; [discriminate|]. rewrite Lm. apply (ki_new _ _ _ _ I _ _ X).
  - intros i z z' [X|X] [X'|X']; try discriminate. apply (ki_type _ _ _ _ I _ _ _ X X').
  - intros i c Ei. rewrite Hd. destruct more.
    + destruct (Nat.eqb_spec o i) as [<-|N].
      * rewrite nth_error_upd_eq in Ei by auto. injection Ei as <-. cbn [o_refs o_type]. split; [lia|]. split; [lia|]. right. rewrite <- Ty. auto.
      * rewrite nth_error_upd_ne in Ei by auto. destruct (ki_live _ _ _ _ I _ _ Ei) as (R' & R1' & T'). split; [lia|]. split; [lia|]. right. auto.
    + destruct (ki_live _ _ _ _ I _ _ Ei) as (R' & R1' & T'). split; [lia|]. split; [lia|]. right. auto.
  - intros i Ei. rewrite Hd. assert (Ei' : nth_error m i = Some None).
    { destruct more; auto. destruct (Nat.eq_dec o i) as [<-|N]; [rewrite nth_error_upd_eq in Ei by auto; discriminate|]. rewrite nth_error_upd_ne in Ei by auto. auto. }
    rewrite (ki_gone _ _ _ _ I _ Ei'). destruct more; [|lia]. destruct (Nat.eqb_spec o i) as [<-|]; [congruence|lia].
  - intros i Li. rewrite Lm in Li. rewrite Ow, (ki_none _ _ _ _ I _ Li). destruct more; [lia|]. destruct (Nat.eqb_spec o i); [lia|lia].
Qed.

(* giving an object to the pool *)
Lemma plain_ok hm k t y o b (more : bool) m0 : KInv hm (Keep (k_pool k) m0 (k_pairs k) (k_log k)) -> running (k_pool k) t = true -> careful (k_pool k) (t, ACall (CAdd 0)) ->
  nth_error m0 o = Some (Some b) -> o_type b = y -> (more = false -> 1 <= own o (k_log k)) ->
  let m := if more then upd m0 o (Some (Obj y (o_refs b + 1))) else m0 in
  exists s, step (k_pool k) (t, ACall (CAdd (Z.of_nat (length (k_pairs k))))) = Ok s /\
    add_plain (Keep (k_pool k) m (k_pairs k) (k_log k)) t y (Some o) more = Ok (Keep s m (k_pairs k ++ [(func_of y, o)]) (KGive o more :: k_log k), Some o) /\
    KInv hm (Keep s m (k_pairs k ++ [(func_of y, o)]) (KGive o more :: k_log k)).
Proof.
  intros (I & Sn & K) Ru C Eb Ty Ho m. cbn [k_pool k_objs k_pairs k_log] in *.
  set (x := (t, ACall (CAdd (Z.of_nat (length (k_pairs k)))))). destruct (step_sane hm _ x I Sn C) as (s & E & Sn'); [intros _; exact Logic.I|].
  destruct (step_fine _ x I) as [(s2 & E2 & I2)|(f & E2 & _)]; [|congruence]. rewrite E in E2. injection E2 as <-.
  destruct (step_adds _ _ _ _ Ru E) as (a & evs & Et & Ev).
  assert (K' : KI m (k_pairs k ++ [(func_of y, o)]) (KGive o more :: k_log k) (s_trace s)).
  { rewrite Et. apply give_inv; auto. apply dests_incl. apply inv_good. auto. }
  assert (Lt : (o < length m0)%nat) by (apply nth_error_Some; congruence).
  assert (Eo : exists c, nth_error m o = Some (Some c) /\ o_type c = y). { unfold m. destruct more; [rewrite nth_error_upd_eq by auto; eauto|eauto]. }
  destruct Eo as (c & Ec & Tc). exists s. split; auto. split; [|split; [|split]; auto].
  unfold add_plain. cbn [k_pool k_objs k_pairs k_log]. assert (Chk : match y with TObject => do b0 <- obj_at m o; if type_eqb (o_type b0) TObject then Ok tt else Fail AssertFail | _ => Ok tt end = Ok tt).
  { destruct y; auto. unfold obj_at. rewrite Ec. cbn [bind]. rewrite Tc. reflexivity. }
  rewrite Chk. cbn [bind]. unfold pool_step. cbn [k_pool k_objs k_pairs k_log]. fold x. rewrite E. cbn [bind].
  replace (evs ++ EAdd a (Z.of_nat (length (k_pairs k))) KClient :: s_trace (k_pool k)) with ((evs ++ [EAdd a (Z.of_nat (length (k_pairs k))) KClient]) ++ s_trace (k_pool k)) in Et by (rewrite <- app_assoc; auto).
  rewrite Et, news. destruct Ev as [->|(i & ->)]; reflexivity.
Qed.

Lemma kstep_ok hm k x : KInv hm k -> sensible k x -> (hm = true -> khome k x) ->
  exists k' pl, kstep k x = Ok k' /\ KInv hm k' /\ run (k_pool k) pl = Ok (k_pool k') /\ all_along careful (k_pool k) pl /\ (hm = true -> all_along home (k_pool k) pl).
Proof.
  intros K Se Hh. pose proof K as (I & Sn & KK). destruct x as [t a|y|y o|y o|t y p|t y p]; cbn [kstep].
  - destruct (is_add a) eqn:Na. { exists k, []. split; auto. split; auto. split; auto. split; [exact Logic.I|intros _; exact Logic.I]. }
    cbn in Se. destruct (pool_step_ok hm k t a K Na Se) as (s & m & lg & E & E' & K'). { intros Hm. specialize (Hh Hm). destruct a; auto. }
    rewrite E'. exists (Keep s m (k_pairs k) lg), [(t, a)]. split; auto. split; auto. cbn [run all_along k_pool]. rewrite E. cbn [bind]. split; auto. split; [auto|]. intros Hm. split; auto. specialize (Hh Hm). destruct a; auto; exact Logic.I.
  - exists (Keep (k_pool k) (k_objs k ++ [Some (Obj y 1)]) (k_pairs k) (KNew (length (k_objs k)) y :: k_log k)), []. split; auto. split; [|split; [auto|split; [exact Logic.I|intros _; exact Logic.I]]].
    split; auto. split; auto. cbn. set (n := length (k_objs k)).
    assert (G0 : forall o, (n <= o)%nat -> given o (k_log k) = 0 /\ released o (k_log k) = 0).
    { intros o Lo. assert (Z0 : forall l, incl l (addeds (s_trace (k_pool k))) -> count (points (k_pairs k) o) l = 0).
      { induction l as [|(i & d) l IH]; intros Il; auto. rewrite count_cons, IH by (intros z Zz; apply Il; cbn; auto). unfold points. destruct (nth_error (k_pairs k) (Z.to_nat d)) as [(f & j)|] eqn:Ej; auto.
        destruct (Nat.eqb_spec j o) as [->|]; auto. apply nth_error_In in Ej. apply (ki_pairs _ _ _ _ KK) in Ej. apply (ki_new _ _ _ _ KK) in Ej. unfold n in Lo. lia. }
      rewrite (ki_given _ _ _ _ KK), (ki_released _ _ _ _ KK). split; apply Z0; [apply incl_refl|]. apply dests_incl, inv_good. auto. }
    assert (H0 : forall o, (n <= o)%nat -> held o (k_log k) = 0) by (intros o Lo; unfold held; destruct (G0 o Lo) as (-> & ->); rewrite (ki_none _ _ _ _ KK); auto; lia).
    assert (Hd : forall o, held o (KNew n y :: k_log k) = held o (k_log k) + if Nat.eqb n o then 1 else 0) by (intros o; unfold held; cbn; lia).
    constructor.
    + intros o. cbn. apply (ki_given _ _ _ _ KK).
    + intros o. cbn. apply (ki_released _ _ _ _ KK).
    + apply (ki_range _ _ _ _ KK).
    + intros f o X. right. apply (ki_pairs _ _ _ _ KK). auto.
    + intros o. cbn. pose proof (ki_own _ _ _ _ KK o). destruct (Nat.eqb n o); lia.
    + intros o z [X|X]; rewrite app_length; cbn; [injection X as <- <-; unfold n; lia|]. apply (ki_new _ _ _ _ KK) in X. lia.
    + intros o z z' [X|X] [X'|X'].
      * congruence.
      * injection X as X _. apply (ki_new _ _ _ _ KK) in X'. unfold n in X. lia.
      * injection X' as X' _. apply (ki_new _ _ _ _ KK) in X. unfold n in X'. lia.
      * apply (ki_type _ _ _ _ KK _ _ _ X X').
    + intros o b Eb. rewrite Hd. destruct (Nat.eqb_spec n o) as [<-|N].
      * unfold n in Eb. rewrite nth_error_app2, Nat.sub_diag in Eb by lia. injection Eb as <-. rewrite H0 by lia. cbn. split; [auto|]. split; [lia|auto].
      * assert (Lo : (o < n)%nat). { assert (o < length (k_objs k ++ [Some (Obj y 1)]))%nat by (apply nth_error_Some; congruence). rewrite app_length in H. cbn in H. unfold n in *. lia. }
        rewrite nth_error_app1 in Eb by auto. destruct (ki_live _ _ _ _ KK _ _ Eb) as (A & B & D). split; [lia|]. split; [lia|]. right. auto.
    + intros o Eo. rewrite Hd. destruct (Nat.eqb_spec n o) as [<-|N].
      * unfold n in Eo. rewrite nth_error_app2, Nat.sub_diag in Eo by lia. discriminate.
      * assert (Lo : (o < n)%nat). { assert (o < length (k_objs k ++ [Some (Obj y 1)]))%nat by (apply nth_error_Some; congruence). rewrite app_length in H. cbn in H. unfold n in *. lia. }
        rewrite nth_error_app1 in Eo by auto. rewrite (ki_gone _ _ _ _ KK _ Eo). lia.
    + intros o Lo. rewrite app_length in Lo. cbn in Lo. cbn. rewrite (ki_none _ _ _ _ KK) by lia. destruct (Nat.eqb_spec n o); unfold n in *; lia.
  - assert (Dead : exists k' pl, Ok k = Ok k' /\ KInv hm k' /\ run (k_pool k) pl = Ok (k_pool k') /\ all_along careful (k_pool k) pl /\ (hm = true -> all_along home (k_pool k) pl)).
    { exists k, []. split; auto. split; auto. split; auto. split; [exact Logic.I|intros _; exact Logic.I]. }
    destruct Se as (H & N). destruct (take_ok _ _ _ _ _ _ KK H N) as (b & Eb & Ty & E).
    assert (Go : exists k' pl, (do m <- take (k_objs k) y o; Ok (Keep (k_pool k) m (k_pairs k) (KTake o :: k_log k))) = Ok k' /\ KInv hm k' /\ run (k_pool k) pl = Ok (k_pool k') /\ all_along careful (k_pool k) pl /\ (hm = true -> all_along home (k_pool k) pl)).
    { rewrite E. cbn [bind]. eexists _, []. split; [reflexivity|]. split; [|split; [auto|split; [exact Logic.I|intros _; exact Logic.I]]]. split; auto. split; auto. cbn [k_pool k_objs k_pairs k_log].
      assert (Lt : (o < length (k_objs k))%nat) by (apply nth_error_Some; congruence). assert (Hd : forall i, held i (KTake o :: k_log k) = held i (k_log k) + if Nat.eqb o i then 1 else 0) by (intros i; unfold held; cbn; lia).
      destruct (ki_live _ _ _ _ KK _ _ Eb) as (R & R1 & T). constructor.
      - intros i. cbn. apply (ki_given _ _ _ _ KK).
      - intros i. cbn. apply (ki_released _ _ _ _ KK).
      - apply (ki_range _ _ _ _ KK).
      - intros f i X. right. apply (ki_pairs _ _ _ _ KK). auto.
      - intros i. cbn. pose proof (ki_own _ _ _ _ KK i). destruct (Nat.eqb o i); lia.
      - intros i z [X|X]; [discriminate|]. rewrite upd_length. apply (ki_new _ _ _ _ KK _ _ X).
      - intros i z z' [X|X] [X'|X']; try discriminate. apply (ki_type _ _ _ _ KK _ _ _ X X').
      - intros i c Ei. rewrite Hd. destruct (Nat.eqb_spec o i) as [<-|Ni].
        + rewrite nth_error_upd_eq in Ei by auto. injection Ei as <-. cbn [o_refs o_type]. split; [lia|]. split; [lia|]. right. auto.
        + rewrite nth_error_upd_ne in Ei by auto. destruct (ki_live _ _ _ _ KK _ _ Ei) as (A & B & D). split; [lia|]. split; [lia|]. right. auto.
      - intros i Ei. rewrite Hd. destruct (Nat.eqb_spec o i) as [<-|Ni]; [rewrite nth_error_upd_eq in Ei by auto; discriminate|]. rewrite nth_error_upd_ne in Ei by auto. rewrite (ki_gone _ _ _ _ KK _ Ei). lia.
      - intros i Li. rewrite upd_length in Li. cbn. rewrite (ki_none _ _ _ _ KK) by auto. destruct (Nat.eqb_spec o i); lia. }
    destruct y; solve [exact Dead|exact Go].
  - destruct Se as (H & N).
    assert (Hh1 : 1 <= held o (k_log k)). { unfold held. rewrite (ki_given _ _ _ _ KK), (ki_released _ _ _ _ KK). pose proof (dests_le (points (k_pairs k) o) _ (inv_good _ I)). lia. }
    destruct (unref_ok _ _ _ _ _ _ KK Hh1 N) as (m' & ev & b & E & Eb & Ty & C). rewrite E. cbn [bind]. eexists _, []. split; [reflexivity|]. split; [|split; [auto|split; [exact Logic.I|intros _; exact Logic.I]]].
    split; auto. split; auto. cbn [k_pool k_objs k_pairs k_log]. eapply unref_inv; try eassumption; try reflexivity; try discriminate.
    + intros i. unfold held. cbn. lia.
    + intros i. cbn. pose proof (ki_own _ _ _ _ KK i). destruct (Nat.eqb_spec o i) as [<-|]; lia.
    + intros i Li. cbn. assert (o < length (k_objs k))%nat by (apply nth_error_Some; congruence). rewrite (ki_none _ _ _ _ KK) by auto. destruct (Nat.eqb_spec o i); lia.
    + intros i. cbn. apply (ki_released _ _ _ _ KK).
  - assert (Dead : exists k' pl, Ok k = Ok k' /\ KInv hm k' /\ run (k_pool k) pl = Ok (k_pool k') /\ all_along careful (k_pool k) pl /\ (hm = true -> all_along home (k_pool k) pl)).
    { exists k, []. split; auto. split; auto. split; auto. split; [exact Logic.I|intros _; exact Logic.I]. }
    destruct (running (k_pool k) t) eqn:Ru; [|exact Dead]. destruct p as [o|]; [|exact Dead]. destruct Se as (C & H & N).
    assert (Hh1 : 1 <= held o (k_log k)). { unfold held. rewrite (ki_given _ _ _ _ KK), (ki_released _ _ _ _ KK). pose proof (dests_le (points (k_pairs k) o) _ (inv_good _ I)). lia. }
    destruct (take_ok _ _ _ _ _ _ KK Hh1 N) as (b & Eb & Ty & _). destruct k as [s0 m0 pairs lg]. cbn [k_pool k_objs k_pairs k_log] in *.
    destruct (plain_ok hm (Keep s0 m0 pairs lg) t y o b false m0 K Ru C Eb Ty (fun _ => H)) as (s & E & Ea & K'). cbn [k_pool k_objs k_pairs k_log] in *. rewrite Ea. cbn [bind].
    eexists _, [_]. split; [reflexivity|]. split; [exact K'|]. cbn [run all_along k_pool]. rewrite E. cbn [bind]. split; auto. split; [split; [exact C|auto]|]. intros _. split; exact Logic.I.
  - assert (Dead : exists k' pl, Ok k = Ok k' /\ KInv hm k' /\ run (k_pool k) pl = Ok (k_pool k') /\ all_along careful (k_pool k) pl /\ (hm = true -> all_along home (k_pool k) pl)).
    { exists k, []. split; auto. split; auto. split; auto. split; [exact Logic.I|intros _; exact Logic.I]. }
    assert (Go : exists k' pl, (if running (k_pool k) t then do (k, _) <- add_ref k t y p; Ok k else Ok k) = Ok k' /\ KInv hm k' /\ run (k_pool k) pl = Ok (k_pool k') /\ all_along careful (k_pool k) pl /\ (hm = true -> all_along home (k_pool k) pl)).
    { destruct (running (k_pool k) t) eqn:Ru; [|exact Dead]. destruct p as [o|]; [|exact Dead]. destruct Se as (C & H & N). destruct (take_ok _ _ _ _ _ _ KK H N) as (b & Eb & Ty & Et).
      unfold add_ref. rewrite Et. cbn [bind]. destruct k as [s0 m0 pairs lg]. cbn [k_pool k_objs k_pairs k_log] in *.
      destruct (plain_ok hm (Keep s0 m0 pairs lg) t y o b true m0 K Ru C Eb Ty) as (s & E & Ea & K'); [discriminate|]. cbn [k_pool k_objs k_pairs k_log] in *. rewrite Ea. cbn [bind].
      eexists _, [_]. split; [reflexivity|]. split; [exact K'|]. cbn [run all_along k_pool]. rewrite E. cbn [bind]. split; auto. split; [split; [exact C|auto]|]. intros _. split; exact Logic.I. }
    destruct y; solve [exact Dead|exact Go].
Qed.

Lemma all_app (P : state -> nat * action -> Prop) l1 : forall s s' l2, run s l1 = Ok s' -> all_along P s l1 -> all_along P s' l2 -> all_along P s (l1 ++ l2).
Proof.
  induction l1 as [|x l1 IH]; cbn [run app all_along]; intros s s' l2 R A B. { injection R as ->. auto. }
  destruct A as (A1 & A2). split; auto. destruct (step s x) as [s1|f]; cbn [bind] in R; [|discriminate]. eapply IH; eauto.
Qed.
Lemma run_both l1 : forall s s' l2, run s l1 = Ok s' -> run s (l1 ++ l2) = run s' l2.
Proof. induction l1 as [|x l1 IH]; cbn [run app]; intros s s' l2 R; [injection R as ->; auto|]. destruct (step s x) as [s1|f]; cbn [bind] in *; [|discriminate]. eauto. Qed.
Lemma krun_ok hm l : forall k, KInv hm k -> kall sensible k l -> (hm = true -> kall khome k l) ->
  exists k' pl, krun k l = Ok k' /\ KInv hm k' /\ run (k_pool k) pl = Ok (k_pool k') /\ all_along careful (k_pool k) pl /\ (hm = true -> all_along home (k_pool k) pl).
Proof.
  induction l as [|x l IH]; intros k K A H; cbn [krun]. { exists k, []. split; [reflexivity|]. split; [exact K|]. split; [reflexivity|]. split; [exact Logic.I|intros _; exact Logic.I]. }
  destruct A as (A1 & A2). destruct (kstep_ok hm k x K A1) as (k1 & p1 & E1 & K1 & R1 & C1 & H1). { intros Hm. apply H; auto. }
  rewrite E1 in *. cbn [bind]. destruct (IH k1 K1 A2) as (k2 & p2 & E2 & K2 & R2 & C2 & H2). { intros Hm. specialize (H Hm). cbn in H. rewrite E1 in H. apply H. }
  exists k2, (p1 ++ p2). split; auto. split; auto. split; [rewrite (run_both _ _ _ _ R1); auto|]. split; [eapply all_app; eauto|]. intros Hm. eapply all_app; eauto.
Qed.
Lemma kstart_inv hm s : starts s -> KInv hm (kstart s).
Proof.
  intros St. assert (Tr : addeds (s_trace s) = [] /\ dests (s_trace s) = []).
  { destruct St as (n & [->|E]); [split; reflexivity|]. destruct (shared_start n) as (s' & E' & ->). rewrite E' in E. injection E as <-. split; reflexivity. }
  split; [apply starts_inv; auto|]. split; [destruct hm; [|apply sane_weak]; apply starts_sane; auto|]. destruct Tr as (Ta & Td). cbn. constructor; cbn; rewrite ?Ta, ?Td; try tauto; auto.
  - intros i d [].
  - lia.
  - intros o b. destruct o; discriminate.
Qed.
