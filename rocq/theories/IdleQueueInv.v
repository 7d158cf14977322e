(* The invariant of all executions of the idle queue *)
From Verif Require Import Base IdleQueueModel IdleQueueSpec IdleQueueProofs.
From Coq Require Import Permutation.

(* ---------------- definitions ---------------- *)
(* the items a function in progress has taken out of the queue, and what it knows about them *)
Definition fitems (h : heap) (tr : list event) (f : frame) (D : list nat) : Prop :=
  match f with
  | FRunLoop _ done | FRunDestroyCb _ done => lseg h done D
  | FRunCb _ done a => done = Some a /\ lseg h done D /\ In (ETake a) tr /\ ~ has_destroyed a tr /\
      exists it, nth_error h a = Some (Some it) /\ (it_run it = true -> In (ERun a (it_data it)) tr)
  | FAllLoop _ | FNullCb => D = []
  | FAllCb a _ | FTagFirstCb a _ | FTagMidCb a _ => D = [a] /\ alive h a
  end.
Definition is_cb (f : frame) : bool := match f with FRunLoop _ _ | FAllLoop _ => false | _ => true end.
Definition nonnull (f : frame) : bool := match f with FNullCb => false | _ => true end.
Definition fmatch (f : frame) (o : activity) : Prop :=
  match f, o with
  | (FRunLoop sid _ | FRunCb sid _ _ | FRunDestroyCb sid _), OPass sid' _ => sid = sid'
  | (FAllLoop _ | FAllCb _ _), OAll _ => True
  | (FTagFirstCb _ tag | FTagMidCb _ tag), OTag tag' true => tag = tag'
  | _, _ => False
  end.
Definition before (o : activity) : list entry := match o with OPass _ b | OAll b => b | OTag _ _ => [] end.
Fixpoint scope (o : list activity) : list entry :=
  match o with [] => [] | OTag _ _ :: o => scope o | o :: _ => before o end.
Definition sid_of (f : frame) : option nat :=
  match f with FRunLoop sid _ | FRunCb sid _ _ | FRunDestroyCb sid _ => Some sid | _ => None end.
(* why no source is left when the queue becomes empty *)
Fixpoint cov (src : nat) (L1 L : list nat) (tag : bool) (k : list frame) : Prop :=
  match k with
  | [] => L1 = [] /\ (tag = false -> L = [] -> src = 0%nat)
  | FTagFirstCb _ _ :: k => cov src L1 L true k
  | (FTagMidCb _ _ | FNullCb) :: k => cov src L1 L tag k
  | (FRunLoop sid _ | FRunCb sid _ _ | FRunDestroyCb sid _) :: _ => src = sid \/ (L1 = [] /\ (tag = false -> L = [] -> src = 0%nat))
  | (FAllLoop _ | FAllCb _ _) :: _ => True
  end.
Definition srcok (src : nat) (srcs : list (nat * bool)) (k : list frame) : Prop :=
  (src = 0%nat /\ srcs = []) \/
  (src <> 0%nat /\ exists b, srcs = [(src, b)] /\ (b = true -> exists f, In f k /\ sid_of f = Some src)).

Record INV (h : heap) (oq : option queue) (srcs : list (nat * bool)) (nxt : nat) (k : list frame) (tr : list event)
  (L1 L2 : list nat) (Ds : list (list nat)) : Prop := {
  v_q : match oq with
        | Some q => lseg h (q_first q) (L1 ++ L2) /\ q_last q = lasto (L1 ++ L2) /\ Forall2 (is_entry h) (L1 ++ L2) (pending tr) /\
                    srcok (q_source q) srcs k /\ (L1 ++ L2 <> [] -> q_source q <> 0%nat) /\ cov (q_source q) L1 (L1 ++ L2) false k
        | None => L1 = [] /\ L2 = []
        end;
  v_done : Forall (flag h true) L1 /\ Forall (flag h false) L2;
  v_frames : Forall2 (fitems h tr) k Ds;
  v_nodup : NoDup ((L1 ++ L2) ++ concat Ds);
  v_items : forall a it, nth_error h a = Some (Some it) -> In (EAdd (entry_of a it)) tr;
  v_fresh : forall e, In (EAdd e) tr -> (e_id e < length h)%nat;
  v_good : good tr;
  v_act : Forall2 fmatch (filter nonnull k) (active tr);
  v_scope : incl L1 (map e_id (scope (active tr)));
  v_snap : forall o e, In o (active tr) -> In e (before o) -> In (e_id e) (L1 ++ L2) -> In (e_id e) L1;
  v_sources : map fst srcs = sources tr;
  v_ids : (0 < nxt)%nat /\ (forall x, In x srcs -> (fst x < nxt)%nat);
  v_cancel : forall e, In (EAdd e) tr -> In (ECancel (e_id e)) tr -> e_destroy e = true -> In (EDestroy (e_id e) (e_data e)) tr;
  v_take : forall e, In (EAdd e) tr -> In (ETake (e_id e)) tr ->
    (e_run e = true -> In (ERun (e_id e) (e_data e)) tr) /\
    (e_destroy e = true -> In (EDestroy (e_id e) (e_data e)) tr \/ exists sid done, In (FRunCb sid done (e_id e)) k);
  v_code : Forall (fun f => is_cb f = true) (tl k);
  v_live : oq <> None -> forall a it, nth_error h a = Some (Some it) -> In a ((L1 ++ L2) ++ concat Ds)
}.
Definition inv (s : state) : Prop :=
  exists L1 L2 Ds, INV (s_heap s) (s_queue s) (s_srcs s) (s_next s) (s_stack s) (s_trace s) L1 L2 Ds.

(* ---------------- small facts ---------------- *)
Lemma nodup_app {A} (l l' : list A) : NoDup (l ++ l') <-> NoDup l /\ NoDup l' /\ (forall a, In a l -> ~ In a l').
Proof.
  induction l as [|x l IH]; cbn.
  - split; [intros H; repeat split; auto; constructor|tauto].
  - split.
    + intros H. inversion H; subst. apply IH in H3. destruct H3 as (A1 & A2 & A3). rewrite in_app_iff in H2. repeat split; auto.
      * constructor; tauto.
      * intros a [->|I]; auto.
    + intros (A1 & A2 & A3). inversion A1; subst. constructor.
      * rewrite in_app_iff. intros [I|I]; [contradiction|]. apply (A3 x); auto.
      * apply IH. repeat split; auto.
Qed.
Lemma entries_ids h l es : Forall2 (is_entry h) l es -> map e_id es = l.
Proof. induction 1 as [|a e l es (it & N & ->) F IH]; cbn; congruence. Qed.
Lemma before_added tr : forall o e, In o (active tr) -> In e (before o) -> In (EAdd e) tr.
Proof.
  induction tr as [|ev tr IH]; cbn; [tauto|]. intros o e Io Ie.
  assert (T : In o (tl (active tr)) -> In (EAdd e) tr).
  { intros I. apply (IH o); auto. destruct (active tr); cbn in *; auto. }
  destruct ev; try (right; apply (IH o); auto; fail); try (right; apply T; exact Io).
  - right. destruct (active tr) as [|[ | |] r] eqn:Ea; try (apply (IH o); auto; fail). destruct Io as [<-|Io]; [destruct Ie|]. apply (IH o); auto. cbn; auto.
  - destruct Io as [<-|Io]; [right; apply pending_added; auto|]. right; apply (IH o); auto.
  - destruct Io as [<-|Io]; [right; apply pending_added; auto|]. right; apply (IH o); auto.
  - destruct Io as [<-|Io]; [destruct Ie|]. right; apply (IH o); auto.
Qed.
Lemma scope_before o e : In e (scope o) -> exists x, In x o /\ In e (before x).
Proof. induction o as [|x o IH]; cbn; [tauto|]. destruct x; cbn; intros I; eauto. destruct (IH I) as (y & Iy & Ey). eauto. Qed.

Lemma fitems_step h h' tr tr' f D : keeps h h' D -> incl tr tr' -> (forall a, In a D -> has_destroyed a tr' -> has_destroyed a tr) ->
  fitems h tr f D -> fitems h' tr' f D.
Proof.
  intros K I Nd. assert (Al : forall a, In a D -> alive h a -> alive h' a).
  { intros a Ia (it & N). destruct (K a it Ia N) as (it' & N' & _). exists it'. auto. }
  destruct f; cbn; auto; try (apply lseg_keeps; auto); try (intros (-> & A); split; auto; apply Al; cbn; auto).
  intros (-> & R & It & Na & it & N & Er). assert (Ia : In a D). { destruct D; cbn in R; [discriminate|]. destruct R as (R & _). injection R as <-. cbn. auto. }
  split; auto. split; [eapply lseg_keeps; eauto|]. split; auto. split; [intros X; apply Na, Nd; auto|].
  destruct (K a it Ia N) as (it' & N' & _ & E). exists it'. split; auto. unfold entry_of in E. injection E as Et Ed Eru Ede. rewrite Eru, Ed. auto.
Qed.
Lemma frames_step h h' tr tr' k Ds : keeps h h' (concat Ds) -> incl tr tr' -> (forall a, In a (concat Ds) -> has_destroyed a tr' -> has_destroyed a tr) ->
  Forall2 (fitems h tr) k Ds -> Forall2 (fitems h' tr') k Ds.
Proof.
  intros K I Nd F. induction F as [|f D k Ds Hf F IH]; constructor.
  - eapply fitems_step; eauto.
    + eapply keeps_incl; [|exact K]. intros x; cbn. rewrite in_app_iff. auto.
    + intros a Ia. apply Nd. cbn. rewrite in_app_iff. auto.
  - apply IH; [eapply keeps_incl; [|exact K]|]; [intros x; cbn; rewrite in_app_iff; auto|]. intros a Ia. apply Nd. cbn. rewrite in_app_iff. auto.
Qed.
Lemma frames_alive h tr k Ds : Forall2 (fitems h tr) k Ds -> forall a, In a (concat Ds) -> alive h a.
Proof.
  induction 1 as [|f D k Ds Hf F IH]; cbn; [tauto|]. intros a I. apply in_app_iff in I. destruct I as [I|I]; auto. clear IH F.
  destruct f; cbn in Hf.
  - eapply lseg_alive; eauto.
  - subst. destruct I.
  - destruct Hf as (_ & R & _). eapply lseg_alive; eauto.
  - eapply lseg_alive; eauto.
  - destruct Hf as (-> & A). destruct I as [->|[]]; auto.
  - destruct Hf as (-> & A). destruct I as [->|[]]; auto.
  - destruct Hf as (-> & A). destruct I as [->|[]]; auto.
  - subst. destruct I.
Qed.
Lemma frames_noev h tr ev k Ds : (forall i d, ev <> EDestroy i d) -> Forall2 (fitems h tr) k Ds -> Forall2 (fitems h (ev :: tr)) k Ds.
Proof.
  intros N. apply frames_step.
  - intros a it _ E. exists it. auto.
  - intros x; cbn; auto.
  - intros a _ (d & [E|I]); [exfalso; eapply N; eauto|]. exists d. auto.
Qed.
Lemma cov_mono src L1 L1' L L' tag tag' k : cov src L1 L tag k -> (L1 = [] -> L1' = []) -> (tag' = false -> L' = [] -> tag = false /\ L = []) ->
  cov src L1' L' tag' k.
Proof.
  revert tag tag'. induction k as [|f k IH]; cbn; intros tag tag' C A B.
  - destruct C as (C1 & C2). split; auto. intros E1 E2. destruct (B E1 E2). auto.
  - destruct f; auto; try (destruct C as [C|(C1 & C2)]; [auto|right; split; auto; intros E1 E2; destruct (B E1 E2); auto]); try (eapply IH; eauto; fail).
    eapply IH; eauto. discriminate.
Qed.
Lemma cov_zero L tag k : cov 0 [] L tag k.
Proof. revert tag. induction k as [|f k IH]; cbn; intros tag; auto. destruct f; auto. Qed.
Lemma cov_none src L tag k : L <> [] -> cov src [] L tag k.
Proof.
  intros N. revert tag. induction k as [|f k IH]; cbn; intros tag; auto. { split; auto. intros _ E. contradiction. }
  destruct f; auto; right; split; auto; intros _ E; contradiction.
Qed.
Lemma srcok_mono src srcs k k' : (forall f, In f k -> sid_of f <> None -> exists f', In f' k' /\ sid_of f' = sid_of f) -> srcok src srcs k -> srcok src srcs k'.
Proof.
  intros I [(A & B)|(A & b & B & C)]; [left; auto|right]. split; auto. exists b. split; auto. intros E. destruct (C E) as (f & If & Es).
  destruct (I f If ltac:(congruence)) as (f' & If' & Es'). exists f'. split; auto. congruence.
Qed.

(* ---------------- events without effect on what is watched ---------------- *)
Definition neutral (e : event) : bool :=
  match e with ERef | EUnref | EFree | EZero | EGone | EContains _ _ | EReturn | ENullDestroy _ => true | _ => false end.
Lemma INV_neutral h oq srcs nxt k tr L1 L2 Ds e : neutral e = true -> legal tr e -> INV h oq srcs nxt k tr L1 L2 Ds -> INV h oq srcs nxt k (e :: tr) L1 L2 Ds.
Proof.
  intros N Lg [].
  assert (P : pending (e :: tr) = pending tr) by (destruct e; discriminate || reflexivity).
  assert (A : active (e :: tr) = active tr) by (destruct e; discriminate || reflexivity).
  assert (So : sources (e :: tr) = sources tr) by (destruct e; discriminate || reflexivity).
  assert (Nd : forall i d, e <> EDestroy i d) by (intros; destruct e; discriminate).
  assert (Na : forall x, e <> EAdd x) by (intros; destruct e; discriminate).
  assert (Nc : forall x, e <> ECancel x) by (intros; destruct e; discriminate).
  assert (Nt : forall x, e <> ETake x) by (intros; destruct e; discriminate).
  constructor; rewrite ?P, ?A, ?So; auto.
  - apply frames_noev; auto.
  - intros a it E. right. auto.
  - intros x [E|I]; auto. exfalso. eapply Na; eauto.
  - split; auto.
  - intros x [E|I] [E'|I'] D; [exfalso; eapply Na; eauto|exfalso; eapply Na; eauto|exfalso; eapply Nc; eauto|]. right. auto.
  - intros x [E|I] [E'|I']; [exfalso; eapply Na; eauto|exfalso; eapply Na; eauto|exfalso; eapply Nt; eauto|].
    destruct (v_take0 x I I') as (X1 & X2). split; intros X; [right; auto|]. destruct (X2 X); auto. left. right. auto.
Qed.
Lemma INV_refs h q srcs nxt k tr L1 L2 Ds n : INV h (Some q) srcs nxt k tr L1 L2 Ds -> INV h (Some (set_refs q n)) srcs nxt k tr L1 L2 Ds.
Proof. intros []. constructor; auto. intros _. apply v_live0. discriminate. Qed.

(* the end of the queue *)
Lemma INV_gone h oq srcs nxt k tr L1 L2 Ds : INV h oq srcs nxt k tr L1 L2 Ds -> INV h None srcs nxt k tr [] [] Ds.
Proof.
  intros []. constructor; auto.
  - cbn. apply nodup_app in v_nodup0. tauto.
  - intros a [].
  - congruence.
Qed.

(* ---------------- a loop begins ---------------- *)
Lemma INV_begin h q srcs srcs' nxt k tr L1 L2 Ds f ev :
  INV h (Some q) srcs nxt k tr L1 L2 Ds -> Forall (fun f => is_cb f = true) k ->
  (f = FRunLoop (q_source q) None /\ ev = EPass (q_source q) /\ srcs = [(q_source q, false)] /\ srcs' = [(q_source q, true)]) \/
  (exists w, f = FAllLoop w /\ ev = EAll /\ srcs' = srcs) ->
  exists h', mark (length h) h (q_first q) = Ok h' /\ INV h' (Some q) srcs' nxt (f :: k) (ev :: tr) (L1 ++ L2) [] ([] :: Ds).
Proof.
  intros [] Cb Hf. destruct v_q0 as (R & La & En & Sr & Ne & Co). set (L := L1 ++ L2) in *.
  pose proof (proj1 (nodup_app _ _) v_nodup0) as (NL & ND & NX).
  assert (Len : (length L <= length h)%nat). { apply nodup_bound; auto. intros a I. apply alive_lt. eapply lseg_alive; eauto. }
  destruct (mark_ok L (length h) h (q_first q) R NL Len) as (h' & E & Ln & Out & Inn). exists h'. split; auto.
  assert (K : forall l, keeps h h' l).
  { intros l a it Ia N. destruct (in_dec Nat.eq_dec a L) as [I|I].
    - exists (set_completed it). split; auto.
    - exists it. rewrite Out; auto. }
  assert (P : pending (ev :: tr) = pending tr) by (destruct Hf as [(_ & -> & _)|(w & _ & -> & _)]; reflexivity).
  assert (So : sources (ev :: tr) = sources tr) by (destruct Hf as [(_ & -> & _)|(w & _ & -> & _)]; reflexivity).
  assert (exists o, active (ev :: tr) = o :: active tr /\ fmatch f o /\ before o = pending tr /\ scope (active (ev :: tr)) = pending tr) as (o & A & Fm & Bo & Sc).
  { destruct Hf as [(-> & -> & _)|(w & -> & -> & _)]; cbn; eexists; repeat split. }
  assert (Nd : forall i d, ev <> EDestroy i d) by (intros; destruct Hf as [(_ & -> & _)|(w & _ & -> & _)]; discriminate).
  assert (Na : forall x, ev <> EAdd x) by (intros; destruct Hf as [(_ & -> & _)|(w & _ & -> & _)]; discriminate).
  assert (Nc : forall x, ev <> ECancel x) by (intros; destruct Hf as [(_ & -> & _)|(w & _ & -> & _)]; discriminate).
  assert (Nt : forall x, ev <> ETake x) by (intros; destruct Hf as [(_ & -> & _)|(w & _ & -> & _)]; discriminate).
  constructor; rewrite ?app_nil_r, ?P, ?So; auto.
  - split; [eapply lseg_keeps; eauto|]. split; auto. split; [eapply entries_keeps; eauto|]. split; [|split; auto].
    + destruct Hf as [(-> & _ & E1 & ->)|(w & -> & _ & ->)].
      * destruct Sr as [(Z & Z')|(Z & b & Z' & _)]; [congruence|]. right. split; auto. exists true. split; auto. intros _. eexists. split; [left; reflexivity|reflexivity].
      * eapply srcok_mono; [|exact Sr]. intros f If Es. exists f. cbn. auto.
    + destruct Hf as [(-> & _)|(w & -> & _)]; cbn; auto.
  - split; [|constructor]. rewrite Forall_forall. intros a I. destruct (lseg_alive _ _ _ R a I) as (it & N). exists (set_completed it). split; auto.
  - constructor.
    + destruct Hf as [(-> & _)|(w & -> & _)]; reflexivity.
    + apply frames_noev; auto. eapply frames_step; [apply K|intros x; exact (fun y => y)| |exact v_frames0]. auto.
  - intros a it N. right. destruct (in_dec Nat.eq_dec a L) as [I|I].
    + destruct (lseg_alive _ _ _ R a I) as (it0 & N0). rewrite (Inn a it0 I N0) in N. injection N as <-. apply (v_items0 a it0 N0).
    + rewrite Out in N by auto. auto.
  - intros x [X|I]; [exfalso; eapply Na; eauto|]. rewrite Ln. auto.
  - split; auto. destruct Hf as [(_ & -> & E1 & _)|(w & _ & -> & _)]; cbn; auto. rewrite <- v_sources0, E1. cbn. auto.
  - rewrite A. destruct Hf as [(-> & _)|(w & -> & _)]; cbn; constructor; auto.
  - rewrite Sc. rewrite (entries_ids _ _ _ En). apply incl_refl.
  - rewrite <- v_sources0. destruct Hf as [(_ & _ & -> & ->)|(w & _ & _ & ->)]; reflexivity.
  - split; [tauto|]. intros x I. destruct Hf as [(_ & _ & E1 & E2)|(w & _ & _ & E2)].
    + subst srcs'. destruct I as [<-|[]]. apply (proj2 v_ids0 (q_source q, false)). rewrite E1. cbn. auto.
    + subst. apply v_ids0. auto.
  - intros x [X|I] [X'|I'] D; [exfalso; eapply Na; eauto|exfalso; eapply Na; eauto|exfalso; eapply Nc; eauto|]. right. auto.
  - intros x [X|I] [X'|I']; [exfalso; eapply Na; eauto|exfalso; eapply Na; eauto|exfalso; eapply Nt; eauto|].
    destruct (v_take0 x I I') as (X1 & X2). split; intros X; [right; auto|]. destruct (X2 X) as [Y|(sid & dn & Y)]; [left; right; auto|right].
    exists sid, dn. right. auto.
  - intros _ a it N. cbn [concat app]. destruct (in_dec Nat.eq_dec a L) as [I|I]; [apply in_app_iff; auto|]. rewrite Out in N by auto.
    apply (v_live0 ltac:(discriminate) a it N).
Qed.

Lemma act_cons f k o : Forall2 fmatch (filter nonnull (f :: k)) o -> nonnull f = true ->
  exists x o', o = x :: o' /\ fmatch f x /\ Forall2 fmatch (filter nonnull k) o'.
Proof. cbn [filter]. intros F E. rewrite E in F. inversion F; subst. eauto. Qed.

(* ---------------- an item is run ---------------- *)
Lemma filter_other i es : ~ In i (map e_id es) -> filter (fun e => negb (Nat.eqb (e_id e) i)) es = es.
Proof.
  induction es as [|e es IH]; cbn; auto. intros N. destruct (Nat.eqb_spec (e_id e) i) as [E|E]; [tauto|]. cbn. rewrite IH; auto.
Qed.
Lemma filter_mid l e r : NoDup (map e_id (l ++ e :: r)) -> filter (fun x => negb (Nat.eqb (e_id x) (e_id e))) (l ++ e :: r) = l ++ r.
Proof.
  rewrite map_app. cbn. intros N. apply NoDup_remove_2 in N. rewrite in_app_iff in N. rewrite filter_app. cbn. rewrite Nat.eqb_refl. cbn.
  rewrite !filter_other; auto.
Qed.
Lemma lasto_pop a l : (match hd_error l with None => None | Some _ => lasto (a :: l) end) = lasto l.
Proof. destruct l; reflexivity. Qed.
Lemma flag_get h b l a it : Forall (flag h b) l -> In a l -> nth_error h a = Some (Some it) -> it_completed it = b.
Proof. rewrite Forall_forall. intros F I N. destruct (F a I) as (it' & N' & E). congruence. Qed.

Lemma INV_take h q srcs nxt sid done k tr a L1 L2 D Ds it :
  INV h (Some q) srcs nxt (FRunLoop sid done :: k) tr (a :: L1) L2 (D :: Ds) -> nth_error h a = Some (Some it) ->
  INV (upd h a (Some (set_next it done))) (Some (set_ends q (it_next it) (match it_next it with None => None | Some _ => q_last q end)))
    srcs nxt (FRunCb sid (Some a) a :: k) (if it_run it then ERun a (it_data it) :: ETake a :: tr else ETake a :: tr) L1 L2 ((a :: D) :: Ds).
Proof.
  intros [] N. cbn [app] in *. destruct v_q0 as ((Hd & it' & N' & R) & La & En & Sr & Ne & Co). rewrite N in N'. injection N' as <-.
  inversion En as [|? e ? r (it' & N' & Ee) En' El Er]; subst. rewrite N in N'. injection N' as <-.
  inversion v_frames0 as [|? ? ? ? Hf Hk]; subst. cbn in Hf.
  pose proof (proj1 (NoDup_cons_iff a ((L1 ++ L2) ++ concat (D :: Ds))) v_nodup0) as (NX & ND).
  cbn [concat] in *. rewrite !in_app_iff in NX.
  assert (NLa : ~ In a (L1 ++ L2)) by (rewrite in_app_iff; tauto).
  set (h' := upd h a (Some (set_next it done))). set (tr' := if it_run it then _ else _).
  assert (Sm : same h h' ((L1 ++ L2) ++ D ++ concat Ds)). { apply same_upd. rewrite !in_app_iff. tauto. }
  pose proof (pending_nodup tr v_good0) as Np. rewrite <- Er in Np. cbn [map] in Np. inversion Np as [|? ? Np1 Np2]; subst.
  assert (P : pending tr' = r). { unfold tr'. destruct (it_run it); cbn [pending]; rewrite <- Er; cbn; rewrite Nat.eqb_refl; cbn; apply filter_other; auto. }
  assert (A : active tr' = active tr) by (unfold tr'; destruct (it_run it); reflexivity).
  assert (So : sources tr' = sources tr) by (unfold tr'; destruct (it_run it); reflexivity).
  assert (Ic : incl tr tr') by (unfold tr'; intros x X; destruct (it_run it); cbn; auto).
  assert (It : In (ETake a) tr') by (unfold tr'; destruct (it_run it); cbn; auto).
  assert (Nd : forall b, has_destroyed b tr' -> has_destroyed b tr).
  { intros b (d & X). exists d. unfold tr' in X. destruct (it_run it); cbn in X; intuition discriminate. }
  assert (Ad : forall x, In (EAdd x) tr' -> In (EAdd x) tr).
  { intros x X. unfold tr' in X. destruct (it_run it); cbn in X; intuition discriminate. }
  assert (Ca : forall i, In (ECancel i) tr' -> In (ECancel i) tr).
  { intros x X. unfold tr' in X. destruct (it_run it); cbn in X; intuition discriminate. }
  assert (Ta : forall i, In (ETake i) tr' -> i = a \/ In (ETake i) tr).
  { intros x X. unfold tr' in X. destruct (it_run it); cbn in X; intuition try discriminate; left; congruence. }
  assert (Ie : In (EAdd (entry_of a it)) tr) by auto.
  assert (Ncl : ~ In (ETake a) tr /\ ~ In (ECancel a) tr).
  { apply (pending_clean tr (entry_of a it)); auto. rewrite <- Er. cbn. auto. }
  assert (Ndd : ~ has_destroyed a tr). { intros (d & X). destruct (destroyed_left tr a d v_good0 X); tauto. }
  assert (G1 : legal tr (ETake a)).
  { assert (exists b o, active tr = OPass sid b :: o) as (b & o & Eo).
    { destruct (act_cons _ _ _ v_act0 eq_refl) as ([ | |] & o' & Eo & Hm & _); cbn in Hm; try contradiction. subst. eauto. }
    cbn. exists (entry_of a it), r, sid, b, o. repeat split; auto. rewrite Eo in v_scope0. cbn in v_scope0.
    assert (I : In a (map e_id b)) by (apply v_scope0; cbn; auto). apply in_map_iff in I. destruct I as (e' & Ei & I').
    assert (In (EAdd e') tr). { apply (before_added tr (OPass sid b)); auto. rewrite Eo. cbn. auto. }
    rewrite <- (added_unique tr e' (entry_of a it)); auto. }
  assert (Hlseg : lseg h' (Some a) (a :: D)).
  { cbn. split; auto. exists (set_next it done). split; [eapply upd_here; eauto|]. cbn. eapply lseg_same; [|exact Hf].
    eapply same_incl; [|exact Sm]. intros x X. rewrite !in_app_iff. auto. }
  constructor; rewrite ?P, ?A, ?So; auto.
  - cbn [set_ends q_first q_last q_source]. split; [|split; [|split; [|split; [|split]]]].
    + eapply lseg_same; [|exact R]. eapply same_incl; [|exact Sm]. intros x X. rewrite in_app_iff. auto.
    + rewrite (lseg_hd _ _ _ R), La. apply lasto_pop.
    + eapply entries_keeps; [|exact En']. apply same_keeps. eapply same_incl; [|exact Sm]. intros x X. rewrite in_app_iff. auto.
    + eapply srcok_mono; [|exact Sr]. intros f [<-|If] Es; [exists (FRunCb sid (Some a) a)|exists f]; cbn; auto.
    + intros _. apply Ne. discriminate.
    + cbn in *. destruct Co as [C|(C & _)]; [auto|discriminate].
  - destruct v_done0 as (F1 & F2). inversion F1; subst. split.
    + eapply flag_same; [|eauto]. eapply same_incl; [|exact Sm]. intros x X. rewrite !in_app_iff. auto.
    + eapply flag_same; [|eauto]. eapply same_incl; [|exact Sm]. intros x X. rewrite !in_app_iff. auto.
  - constructor.
    + cbn [fitems]. split; auto. split; auto. split; auto. split; auto. exists (set_next it done). split; [eapply upd_here; eauto|]. cbn.
      intros X. unfold tr'. rewrite X. cbn. auto.
    + eapply frames_step; [| |  |exact Hk]; auto. apply same_keeps. eapply same_incl; [|exact Sm]. intros x X. rewrite !in_app_iff. auto.
  - cbn [concat]. change ((a :: D) ++ concat Ds) with (a :: (D ++ concat Ds)). apply NoDup_Add with (a := a) (l := (L1 ++ L2) ++ D ++ concat Ds); [apply Add_app|].
    split; auto. rewrite !in_app_iff. tauto.
  - intros b ib X. unfold h' in X. apply Ic. destruct (Nat.eq_dec a b) as [<-|Nb].
    + rewrite (upd_here _ _ _ _ N) in X. injection X as <-. exact Ie.
    + rewrite nth_error_upd_ne in X by auto. auto.
  - intros x X. unfold h'. rewrite upd_length. auto.
  - unfold tr'. destruct (it_run it) eqn:Ern; cbn [good]; auto. split; auto. cbn [legal]. exists tr, (entry_of a it). repeat split; auto. right. auto.
  - destruct (act_cons _ _ _ v_act0 eq_refl) as (x & o' & Eo & Hm & Ho). rewrite Eo. cbn. constructor; auto.
  - intros x X. apply v_scope0. cbn. auto.
  - intros o e Io Ie0 X. assert (Y : In (e_id e) (a :: L1)). { apply (v_snap0 o e); auto. cbn. auto. }
    destruct Y as [Y|Y]; auto. exfalso. apply NLa. rewrite Y. exact X.
  - intros x X Y. apply Ad in X. destruct (Ta _ Y) as [Ea|Y'].
    + assert (x = entry_of a it) as -> by (apply (added_unique tr); auto). cbn. split.
      * intros Z. unfold tr'. rewrite Z. cbn. auto.
      * intros _. right. exists sid, (Some a). auto.
    + destruct (v_take0 x X Y') as (X1 & X2). split; intros Z; [apply Ic; auto|]. destruct (X2 Z) as [Y2|(sid' & dn & [Y2|Y2])]; [left; auto|discriminate|].
      right. exists sid', dn. cbn. auto.
  - intros _ b ib X. cbn [concat]. destruct (Nat.eq_dec a b) as [<-|Nb]; [rewrite !in_app_iff; cbn; auto|]. unfold h' in X. rewrite nth_error_upd_ne in X by auto.
    specialize (v_live0 ltac:(discriminate) b ib X). cbn in v_live0. rewrite !in_app_iff in *. cbn. tauto.
Qed.

(* after the run callback *)
Lemma INV_after_run h oq srcs nxt sid done a k tr L1 L2 Ds :
  INV h oq srcs nxt (FRunCb sid done a :: k) tr L1 L2 Ds ->
  exists it, nth_error h a = Some (Some it) /\
    (it_destroy it = true -> INV h oq srcs nxt (FRunDestroyCb sid done :: k) (EDestroy a (it_data it) :: tr) L1 L2 Ds) /\
    (it_destroy it = false -> INV h oq srcs nxt (FRunLoop sid done :: k) tr L1 L2 Ds).
Proof.
  intros []. inversion v_frames0 as [|? D ? Ds' Hf Hk]; subst. destruct Hf as (-> & R & Ht & Nd & it & N & Er).
  exists it. split; auto. assert (Ie : In (EAdd (entry_of a it)) tr) by auto.
  destruct (act_cons _ _ _ v_act0 eq_refl) as (x & o' & Eo & Hm & Ho).
  assert (Ia : In a D). { destruct D; cbn in R; [discriminate|]. destruct R as (R & _). injection R as <-. cbn. auto. }
  assert (Q : forall f, (f = FRunLoop sid (Some a) \/ f = FRunDestroyCb sid (Some a)) -> match oq with
    | Some q => lseg h (q_first q) (L1 ++ L2) /\ q_last q = lasto (L1 ++ L2) /\ Forall2 (is_entry h) (L1 ++ L2) (pending tr) /\
       srcok (q_source q) srcs (f :: k) /\ (L1 ++ L2 <> [] -> q_source q <> 0%nat) /\ cov (q_source q) L1 (L1 ++ L2) false (f :: k)
    | None => L1 = [] /\ L2 = [] end).
  { intros f Ef. destruct oq; auto. destruct v_q0 as (A1 & A2 & A3 & A4 & A5 & A6). repeat (split; auto).
    - eapply srcok_mono; [|exact A4]. intros g [<-|Ig] Es; [exists f|exists g]; cbn; auto. split; auto. destruct Ef as [-> | ->]; auto.
    - destruct Ef as [-> | ->]; exact A6. }
  split; intros Ed.
  - constructor; auto.
    + apply (Q _ (or_intror eq_refl)).
    + constructor; [exact R|]. pose proof (proj1 (nodup_app _ _) v_nodup0) as (_ & ND & _). cbn in ND. apply nodup_app in ND. destruct ND as (_ & _ & NX).
      eapply frames_step; [| | |exact Hk].
      * intros b ib _ Eb. exists ib. auto.
      * intros y; cbn; auto.
      * intros b Ib (d & [E|I]); [|exists d; auto]. injection E as <- _. exfalso. exact (NX a Ia Ib).
    + intros b ib Nb. right. auto.
    + intros y [Y|Y]; [discriminate|]. auto.
    + split; auto. cbn. exists (entry_of a it). repeat split; auto.
    + cbn [active]. rewrite Eo. cbn. constructor; auto.
    + intros y [Y|Y] [Z|Z]; try discriminate. intros D1. right. auto.
    + intros y [Y|Y] [Z|Z]; try discriminate. destruct (v_take0 y Y Z) as (X1 & X2). split; intros W; [right; auto|].
      destruct (X2 W) as [X|(sid' & dn & [X|X])]; [left; right; auto| |right; exists sid', dn; right; auto].
      injection X as _ _ X. left. assert (y = entry_of a it) as -> by (apply (added_unique tr); auto). cbn. auto.
  - constructor; auto.
    + apply (Q _ (or_introl eq_refl)).
    + rewrite Eo. cbn. constructor; auto.
    + intros y Y Z. destruct (v_take0 y Y Z) as (X1 & X2). split; intros W; auto.
      destruct (X2 W) as [X|(sid' & dn & [X|X])]; [left; auto| |right; exists sid', dn; right; auto].
      injection X as _ _ X. exfalso. assert (y = entry_of a it) as -> by (apply (added_unique tr); auto). cbn in W. congruence.
Qed.
Lemma INV_back h oq srcs nxt sid done k tr L1 L2 Ds :
  INV h oq srcs nxt (FRunDestroyCb sid done :: k) tr L1 L2 Ds -> INV h oq srcs nxt (FRunLoop sid done :: k) tr L1 L2 Ds.
Proof.
  intros []. constructor; auto.
  - destruct oq; auto. destruct v_q0 as (A1 & A2 & A3 & A4 & A5 & A6). repeat (split; auto).
    eapply srcok_mono; [|exact A4]. intros g [<-|Ig] Es; [exists (FRunLoop sid done)|exists g]; cbn; auto.
  - inversion v_frames0; subst. constructor; auto.
  - destruct (act_cons _ _ _ v_act0 eq_refl) as (x & o' & Eo & Hm & Ho). rewrite Eo. cbn. constructor; auto.
  - intros y Y Z. destruct (v_take0 y Y Z) as (X1 & X2). split; auto. intros W. destruct (X2 W) as [X|(sid' & dn & [X|X])]; [left; auto|discriminate|].
    right. exists sid', dn. right. auto.
Qed.

(* ---------------- the end of a pass ---------------- *)
Lemma without_fst srcs i : map fst (without srcs i) = filter (fun j => negb (Nat.eqb j i)) (map fst srcs).
Proof. unfold without. induction srcs as [|x l IH]; cbn; auto. destruct (Nat.eqb (fst x) i); cbn; congruence. Qed.
Lemma map_idle_fst (srcs : list (nat * bool)) i b : map fst (map (fun x => if Nat.eqb (fst x) i then (fst x, b) else x) srcs) = map fst srcs.
Proof. rewrite map_map. apply map_ext. intros x. destruct (Nat.eqb (fst x) i); reflexivity. Qed.
Lemma tl_forall {A} (P : A -> Prop) l : Forall P l -> Forall P (tl l).
Proof. intros F. inversion F; cbn; auto. Qed.

Lemma INV_run_end h q srcs nxt sid done k tr L2 Ds :
  INV h (Some q) srcs nxt (FRunLoop sid done :: k) tr [] L2 Ds ->
  exists h', free_chain (length h) h done = Ok h' /\ exists Ds',
    (q_first q <> None -> INV h' (Some q) (map (fun x => if Nat.eqb (fst x) sid then (fst x, false) else x) srcs) nxt k (EPassEnd sid true :: tr) [] L2 Ds') /\
    (q_first q = None -> INV h' (Some (set_source q 0)) (without srcs sid) nxt k (EPassEnd sid false :: tr) [] [] Ds').
Proof.
  intros []. cbn [app] in *. destruct v_q0 as (R & La & En & Sr & Ne & Co).
  inversion v_frames0 as [|? D ? Ds' Hf Hk]; subst. cbn in Hf. clear v_frames0.
  pose proof v_nodup0 as ND. apply nodup_app in ND. destruct ND as (NL & ND & NX). cbn in ND, NX. apply nodup_app in ND. destruct ND as (ND & NDs & NX2).
  assert (Len : (length D <= length h)%nat). { apply nodup_bound; auto. intros a I. apply alive_lt. eapply lseg_alive; eauto. }
  destruct (chain_ok D (length h) h done Hf ND Len) as (h' & E & Ln & Out & Inn). exists h'. split; auto. exists Ds'.
  assert (SmL : same h h' L2). { intros a I. apply Out. intros X. apply (NX a I). rewrite in_app_iff. auto. }
  assert (SmD : same h h' (concat Ds')). { intros a I. apply Out. intros X. exact (NX2 a X I). }
  destruct (act_cons _ _ _ v_act0 eq_refl) as (x & o' & Eo & Hm & Ho). destruct x as [sid' b| |]; cbn in Hm; try contradiction. subst sid'.
  assert (Fr : forall again, Forall2 (fitems h' (EPassEnd sid again :: tr)) k Ds').
  { intros again. apply frames_noev; [discriminate|]. eapply frames_step; [apply same_keeps; exact SmD|intros y Y; exact Y|auto|exact Hk]. }
  assert (It : forall again a it, nth_error h' a = Some (Some it) -> In (EAdd (entry_of a it)) (EPassEnd sid again :: tr)).
  { intros again a it N. right. apply v_items0. destruct (in_dec Nat.eq_dec a D) as [I|I]; [rewrite (Inn a I) in N; discriminate|]. rewrite Out in N; auto. }
  assert (Fre : forall again e, In (EAdd e) (EPassEnd sid again :: tr) -> (e_id e < length h')%nat).
  { intros again e [X|X]; [discriminate|]. rewrite Ln. auto. }
  assert (Gd : (L2 <> [] -> good (EPassEnd sid true :: tr)) /\ (L2 = [] -> good (EPassEnd sid false :: tr))).
  { assert (Sn : forall e, In e b -> ~ In e (pending tr)).
    { intros e Ie Ip. apply (v_snap0 (OPass sid b) e); auto; [rewrite Eo; cbn; auto|]. rewrite <- (entries_ids _ _ _ En). apply in_map. auto. }
    split; intros X; split; auto; cbn [legal]; exists b, o'; split; auto; split; auto; split; intros Y; auto; try discriminate.
    - intros Z. apply X. rewrite Z in En. inversion En; auto.
    - exfalso. apply Y. rewrite X in En. inversion En. auto. }
  assert (Act : forall again, Forall2 fmatch (filter nonnull k) (active (EPassEnd sid again :: tr))).
  { intros again. cbn [active]. rewrite Eo. cbn. auto. }
  assert (Sna : forall again o e, In o (active (EPassEnd sid again :: tr)) -> In e (before o) -> In (e_id e) L2 -> False).
  { intros again o e Io Ie X. cbn [active] in Io. rewrite Eo in Io. cbn in Io. apply (v_snap0 o e); auto. rewrite Eo. cbn. auto. }
  assert (Ca : forall again e, In (EAdd e) (EPassEnd sid again :: tr) -> In (ECancel (e_id e)) (EPassEnd sid again :: tr) -> e_destroy e = true -> In (EDestroy (e_id e) (e_data e)) (EPassEnd sid again :: tr)).
  { intros again e [X|X] [Y|Y] Z; try discriminate. right. auto. }
  assert (Ta : forall again e, In (EAdd e) (EPassEnd sid again :: tr) -> In (ETake (e_id e)) (EPassEnd sid again :: tr) ->
     (e_run e = true -> In (ERun (e_id e) (e_data e)) (EPassEnd sid again :: tr)) /\
     (e_destroy e = true -> In (EDestroy (e_id e) (e_data e)) (EPassEnd sid again :: tr) \/ exists sid done, In (FRunCb sid done (e_id e)) k)).
  { intros again e [X|X] [Y|Y]; try discriminate. destruct (v_take0 e X Y) as (X1 & X2). split; intros Z; [right; auto|].
    destruct (X2 Z) as [W|(sid' & dn & [W|W])]; [left; right; auto|discriminate|]. right. eauto. }
  assert (Cd : Forall (fun f => is_cb f = true) (tl k)) by (apply tl_forall; exact v_code0).
  assert (Lv : forall a it, nth_error h' a = Some (Some it) -> In a (L2 ++ concat Ds')).
  { intros a it N. destruct (in_dec Nat.eq_dec a D) as [I|I]; [rewrite (Inn a I) in N; discriminate|]. rewrite Out in N by auto.
    specialize (v_live0 ltac:(discriminate) a it N). cbn in v_live0. rewrite !in_app_iff in *. tauto. }
  split; intros Q.
  - assert (NeL : L2 <> []). { intros ->. cbn in R. contradiction. }
    constructor; cbn [app]; auto.
    + split; [eapply lseg_same; eauto|]. split; auto. split; [cbn [pending]; eapply entries_keeps; eauto; apply same_keeps; auto|]. split; [|split; auto].
      * destruct Sr as [(Z & Z')|(Z & bb & Z' & Zb)]; [left; subst; auto|right]. split; auto. rewrite Z'. cbn [map fst].
        destruct (Nat.eqb_spec (q_source q) sid) as [Es|Es].
        -- exists false. split; auto. discriminate.
        -- exists bb. split; auto. intros Y. destruct (Zb Y) as (f & [<-|If] & Ef); [cbn in Ef; congruence|]. eauto.
      * apply cov_none. auto.
    + split; auto. eapply flag_same; [exact SmL|tauto].
    + apply nodup_app. repeat split; auto. intros a I X. apply (NX a I). rewrite in_app_iff. auto.
    + intros e X. exact (Fre _ e X).
    + tauto.
    + intros y [].
    + intros o e Io Ie X. exact (Sna true o e Io Ie X).
    + rewrite map_idle_fst. exact v_sources0.
    + split; [tauto|]. intros x I. apply in_map_iff in I. destruct I as (y & <- & Iy). destruct v_ids0 as (_ & V). specialize (V y Iy). destruct (Nat.eqb (fst y) sid); auto.
  - assert (EL : L2 = []). { destruct L2; auto. cbn in R. destruct R as (R & _). congruence. } subst L2. clear SmL.
    assert (Es : q_source q = 0%nat \/ q_source q = sid). { cbn in Co. destruct Co as [C|(_ & C)]; auto. }
    assert (Wn : without srcs sid = []).
    { destruct Sr as [(Z & Z')|(Z & bb & Z' & _)]; rewrite Z'; [reflexivity|]. destruct Es as [Es|Es]; [contradiction|]. rewrite Es. cbn. rewrite Nat.eqb_refl. reflexivity. }
    constructor; cbn [app]; auto.
    + cbn [set_source q_first q_last q_source]. split; [exact Q|]. split; auto. split; [cbn [pending]; eapply entries_keeps; [|exact En]; intros ? ? []|]. split; [left; auto|]. split; [congruence|]. apply cov_zero.
    + intros e X. exact (Fre _ e X).
    + tauto.
    + intros y [].
    + rewrite without_fst. cbn [sources]. rewrite v_sources0. reflexivity.
    + rewrite Wn. split; [tauto|]. intros x [].
Qed.

(* ---------------- an item is cancelled ---------------- *)
Definition rem (b : nat) (l : list nat) : list nat := remove Nat.eq_dec b l.
Lemma rem_in b l x : In x (rem b l) <-> In x l /\ x <> b.
Proof. split; [intros I; apply in_remove in I; auto|intros (I & N); apply in_in_remove; auto]. Qed.
Lemma rem_app b l l' : rem b (l ++ l') = rem b l ++ rem b l'.
Proof. apply remove_app. Qed.
Lemma rem_other b l : ~ In b l -> rem b l = l.
Proof. intros N. apply notin_remove. auto. Qed.
Lemma rem_nodup b l : NoDup l -> NoDup (rem b l).
Proof.
  unfold rem. induction l as [|a l IH]; cbn; auto. intros N. inversion N; subst. destruct (Nat.eq_dec b a); auto. constructor; auto.
  intros I. apply in_remove in I. tauto.
Qed.
Lemma rem_mid b l r : NoDup (l ++ b :: r) -> rem b (l ++ b :: r) = l ++ r.
Proof.
  intros N. apply NoDup_remove_2 in N. rewrite in_app_iff in N. rewrite rem_app. unfold rem at 2. cbn. destruct (Nat.eq_dec b b); [|congruence].
  fold (rem b r). rewrite !rem_other; auto.
Qed.
Lemma entries_rem h h' b l es : Forall2 (is_entry h) l es ->
  (forall x it, In x (rem b l) -> nth_error h x = Some (Some it) -> exists it', nth_error h' x = Some (Some it') /\ entry_of x it' = entry_of x it) ->
  Forall2 (is_entry h') (rem b l) (filter (fun e => negb (Nat.eqb (e_id e) b)) es).
Proof.
  induction 1 as [|a e l es (it & N & ->) F IH]; intros K; [constructor|]. unfold rem in *. cbn [remove] in K |- *. cbn [filter entry_of e_id].
  destruct (Nat.eq_dec b a) as [->|Na].
  - rewrite Nat.eqb_refl. cbn. apply IH. intros x ix Ix. apply K. auto.
  - destruct (Nat.eqb_spec a b) as [X|X]; [congruence|]. cbn [negb]. constructor.
    + destruct (K a it (or_introl eq_refl) N) as (it' & N' & E). exists it'. split; auto.
    + apply IH. intros x ix Ix. apply K. right. auto.
Qed.

Lemma INV_cancel h h' q q' srcs nxt k0 k f tr tr0 b it L1 L2 Ds0 Ds :
  INV h (Some q) srcs nxt k0 tr L1 L2 Ds0 ->
  In b (L1 ++ L2) -> nth_error h b = Some (Some it) ->
  (exists w, k0 = FAllLoop w :: k /\ f = FAllCb b w /\ Ds0 = [] :: Ds /\ tr0 = tr) \/
  (exists tag, k0 = k /\ Ds0 = Ds /\ tr0 = ETag tag :: tr /\ Forall (fun f => is_cb f = true) k /\
     (f = FTagFirstCb b tag \/ f = FTagMidCb b tag /\ rem b (L1 ++ L2) <> [])) ->
  legal tr0 (ECancel b) ->
  lseg h' (q_first q') (rem b (L1 ++ L2)) -> q_last q' = lasto (rem b (L1 ++ L2)) -> q_source q' = q_source q ->
  (forall x ix, In x (rem b (L1 ++ L2)) -> nth_error h x = Some (Some ix) ->
     exists ix', nth_error h' x = Some (Some ix') /\ entry_of x ix' = entry_of x ix /\ it_completed ix' = it_completed ix) ->
  same h h' (concat Ds) -> alive h' b -> length h' = length h ->
  (forall x ix', nth_error h' x = Some (Some ix') -> exists ix, nth_error h x = Some (Some ix) /\ entry_of x ix' = entry_of x ix) ->
  INV h' (Some q') srcs nxt (f :: k) (if it_destroy it then EDestroy b (it_data it) :: ECancel b :: tr0 else ECancel b :: tr0)
    (rem b L1) (rem b L2) ([b] :: Ds).
Proof.
  intros [] Ib N Case Lg H1 H2 H7 H3 H4 H6 Hl H5. destruct v_q0 as (R & La & En & Sr & Ne & Co).
  set (L := L1 ++ L2) in *. set (tr' := if it_destroy it then _ else _).
  pose proof (proj1 (nodup_app _ _) v_nodup0) as (NL & NDs & NX).
  assert (Ec : concat Ds0 = concat Ds) by (destruct Case as [(w & _ & _ & -> & _)|(tag & _ & -> & _)]; reflexivity). rewrite Ec in *.
  assert (G0 : good tr0). { destruct Case as [(w & _ & _ & _ & ->)|(tag & _ & _ & -> & _)]; auto. split; cbn; auto. }
  assert (P0 : pending tr0 = pending tr) by (destruct Case as [(w & _ & _ & _ & ->)|(tag & _ & _ & -> & _)]; reflexivity).
  assert (So0 : sources tr0 = sources tr) by (destruct Case as [(w & _ & _ & _ & ->)|(tag & _ & _ & -> & _)]; reflexivity).
  assert (I0 : forall x, In x tr -> In x tr0) by (intros x X; destruct Case as [(w & _ & _ & _ & ->)|(tag & _ & _ & -> & _)]; cbn; auto).
  assert (J0 : forall x, In x tr0 -> In x tr \/ exists tag, x = ETag tag).
  { intros x X. destruct Case as [(w & _ & _ & _ & ->)|(tag & _ & _ & -> & _)]; auto. destruct X as [<-|X]; eauto. }
  assert (Ic : forall x, In x tr -> In x tr') by (intros x X; unfold tr'; destruct (it_destroy it); cbn; auto).
  assert (Jc : forall x, In x tr' -> In x tr \/ (exists tag, x = ETag tag) \/ x = ECancel b \/ (it_destroy it = true /\ x = EDestroy b (it_data it))).
  { intros x X. unfold tr' in X. destruct (it_destroy it); cbn in X.
    - destruct X as [<-|[<-|X]]; auto. destruct (J0 x X); auto.
    - destruct X as [<-|X]; auto. destruct (J0 x X); auto. }
  assert (Ad : forall x, In (EAdd x) tr' -> In (EAdd x) tr).
  { intros x X. destruct (Jc _ X) as [Y|[(t & Y)|[Y|(_ & Y)]]]; auto; discriminate. }
  assert (P : pending tr' = filter (fun e => negb (Nat.eqb (e_id e) b)) (pending tr)).
  { unfold tr'. rewrite <- P0. destruct (it_destroy it); reflexivity. }
  assert (So : sources tr' = sources tr) by (unfold tr'; rewrite <- So0; destruct (it_destroy it); reflexivity).
  assert (Ie : In (EAdd (entry_of b it)) tr) by auto.
  assert (Ip : In (entry_of b it) (pending tr)).
  { rewrite <- (entries_ids _ _ _ En) in Ib. apply in_map_iff in Ib. destruct Ib as (e & Ei & I). rewrite <- (added_unique tr e (entry_of b it)); auto. apply pending_added. auto. }
  assert (Cl : ~ In (ETake b) tr /\ ~ In (ECancel b) tr) by (apply (pending_clean tr (entry_of b it)); auto).
  assert (Nd : ~ has_destroyed b tr). { intros (d & X). destruct (destroyed_left tr b d v_good0 X); tauto. }
  assert (NbD : ~ In b (concat Ds)) by auto.
  assert (Act : scope (active tr') = scope (active tr) /\
            (forall x e, In x (active tr') -> In e (before x) -> In x (active tr)) /\ Forall2 fmatch (filter nonnull (f :: k)) (active tr')).
  { destruct Case as [(w & -> & -> & _ & ->)|(tag & -> & _ & -> & _ & Ef)].
    - destruct (act_cons _ _ _ v_act0 eq_refl) as (x & o' & Eo & Hm & Ho). destruct x; cbn in Hm; try contradiction.
      assert (A : active tr' = active tr) by (unfold tr'; destruct (it_destroy it); cbn; rewrite Eo; reflexivity).
      rewrite A. split; auto. split; auto. rewrite Eo. cbn. constructor; cbn; auto.
    - assert (A : active tr' = OTag tag true :: active tr) by (unfold tr'; destruct (it_destroy it); reflexivity).
      rewrite A. cbn [scope]. split; auto. split.
      + intros x e [<-|X] Y; auto. destruct Y.
      + destruct Ef as [->|(-> & _)]; cbn; constructor; cbn; auto. }
  destruct Act as (Asc & Abf & Afm).
  constructor; rewrite <- ?rem_app; fold L; rewrite ?P, ?So; auto.
  - split; auto. split; auto. split; [|split; [|split]].
    + eapply entries_rem; eauto. intros x ix Ix Nx. destruct (H3 x ix Ix Nx) as (ix' & A1 & A2 & _). eauto.
    + rewrite H7. eapply srcok_mono; [|exact Sr]. intros g Ig Es. destruct Case as [(w & -> & -> & _)|(tag & -> & _)].
      * destruct Ig as [<-|Ig]; [cbn in Es; congruence|]. exists g. cbn. auto.
      * exists g. cbn. auto.
    + rewrite H7. intros X. apply Ne. intros Y. rewrite Y in X. apply X. reflexivity.
    + rewrite H7. destruct Case as [(w & -> & -> & _)|(tag & -> & _ & _ & _ & Ef)]; [cbn; auto|].
      assert (Z : L1 = [] -> rem b L1 = []) by (intros ->; reflexivity).
      destruct Ef as [->|(-> & Nn)]; cbn; (eapply cov_mono; [exact Co|exact Z|]); [discriminate|]. intros _ X. contradiction.
  - destruct v_done0 as (F1 & F2). rewrite Forall_forall in F1, F2. split; apply Forall_forall; intros x X; apply rem_in in X; destruct X as (X & Xb).
    + destruct (F1 x X) as (ix & Nx & Ec1). destruct (H3 x ix) as (ix' & A1 & _ & A3); auto. { apply rem_in. split; auto. apply in_app_iff. auto. }
      exists ix'. split; auto. congruence.
    + destruct (F2 x X) as (ix & Nx & Ec1). destruct (H3 x ix) as (ix' & A1 & _ & A3); auto. { apply rem_in. split; auto. apply in_app_iff. auto. }
      exists ix'. split; auto. congruence.
  - constructor.
    + destruct Case as [(w & _ & -> & _)|(tag & _ & _ & _ & _ & [->|(-> & _)])]; cbn; auto.
    + assert (Hk : Forall2 (fitems h tr) k Ds).
      { destruct Case as [(w & -> & _ & -> & _)|(tag & -> & -> & _)]; auto. inversion v_frames0; auto. }
      eapply frames_step; [apply same_keeps; exact H4|exact Ic| |exact Hk].
      intros x Ix (d & X). destruct (Jc _ X) as [Y|[(t & Y)|[Y|(_ & Y)]]]; try discriminate; [exists d; auto|]. injection Y as -> _. contradiction.
  - cbn [concat app]. apply NoDup_Add with (a := b) (l := rem b L ++ concat Ds); [apply Add_app|]. split.
    + apply nodup_app. split; [apply rem_nodup; auto|]. split; auto. intros x X. apply rem_in in X. apply NX. tauto.
    + rewrite in_app_iff. intros [X|X]; [apply rem_in in X; tauto|contradiction].
  - intros x ix X. destruct (H5 x ix X) as (ix0 & X0 & ->). auto.
  - intros x X. rewrite Hl. auto.
  - assert (G1 : good (ECancel b :: tr0)) by (split; auto). unfold tr'. destruct (it_destroy it) eqn:Ed; auto. split; auto.
    cbn [legal]. exists (entry_of b it). split; [right; auto|]. split; auto. split; auto. split; auto. split; [|left; eauto].
    intros (d & [X|X]); [discriminate|]. destruct (J0 _ X) as [Y|(t & Y)]; [|discriminate]. apply Nd. exists d. auto.
  - rewrite Asc. intros x X. apply rem_in in X. apply v_scope0. tauto.
  - intros o e Io Ie0 X. apply rem_in in X. destruct X as (X & Xb). apply rem_in. split; auto. apply (v_snap0 o e); auto. eapply Abf; eauto.
  - intros e X Y Z. apply Ad in X. destruct (Jc _ Y) as [Y'|[(t & Y')|[Y'|(_ & Y')]]]; try discriminate; [auto|].
    injection Y' as Y'. assert (e = entry_of b it) as -> by (apply (added_unique tr); auto). cbn in *. unfold tr'. rewrite Z. cbn. auto.
  - intros e X Y. apply Ad in X. destruct (Jc _ Y) as [Y'|[(t & Y')|[Y'|(_ & Y')]]]; try discriminate. destruct (v_take0 e X Y') as (X1 & X2). split; intros Z; auto.
    destruct (X2 Z) as [W|(sid & dn & W)]; [left; auto|]. right. exists sid, dn. right. destruct Case as [(w & -> & _)|(tag & -> & _)]; auto. destruct W as [W|W]; [discriminate|auto].
  - cbn [tl]. destruct Case as [(w & -> & _)|(tag & -> & _ & _ & X & _)]; auto.
  - intros _ x ix X. destruct (H5 x ix X) as (ix0 & X0 & _). specialize (v_live0 ltac:(discriminate) x ix0 X0).
    assert (Y : In x (L ++ concat Ds)) by (destruct Case as [(w & _ & _ & -> & _)|(tag & _ & -> & _)]; exact v_live0).
    cbn. rewrite in_app_iff in *. cbn. destruct (Nat.eq_dec x b) as [->|Nb]; auto. destruct Y as [Y|Y]; auto. left. apply rem_in. auto.
Qed.

(* ---------------- cancelling ends ---------------- *)
Lemma INV_release_all h oq srcs nxt a w k tr L1 L2 Ds :
  INV h oq srcs nxt (FAllCb a w :: k) tr L1 L2 Ds ->
  exists it Ds', nth_error h a = Some (Some it) /\ INV (upd h a None) oq srcs nxt (FAllLoop w :: k) tr L1 L2 Ds'.
Proof.
  intros []. inversion v_frames0 as [|? D ? Ds' Hf Hk]; subst. clear v_frames0. destruct Hf as (-> & it & N). exists it, ([] :: Ds'). split; auto.
  pose proof (proj1 (nodup_app _ _) v_nodup0) as (NL & NDs & NX). cbn in NDs. apply NoDup_cons_iff in NDs. destruct NDs as (Na & NDs).
  assert (NaL : ~ In a (L1 ++ L2)). { intros I. apply (NX a I). cbn. auto. }
  assert (Sm : forall l, ~ In a l -> same h (upd h a None) l) by (intros; apply same_upd; auto).
  rewrite in_app_iff in NaL.
  constructor; auto.
  - destruct oq; auto. destruct v_q0 as (A1 & A2 & A3 & A4 & A5 & A6). split; [eapply lseg_same; [|exact A1]; apply Sm; rewrite in_app_iff; auto|].
    split; auto. split; [eapply entries_keeps; [|exact A3]; apply same_keeps, Sm; rewrite in_app_iff; auto|]. split; [|split; auto].
    eapply srcok_mono; [|exact A4]. intros f [<-|If] Es; [cbn in Es; congruence|]. exists f. cbn. auto.
  - destruct v_done0. split; (eapply flag_same; [apply Sm|]; auto).
  - constructor; [reflexivity|]. eapply frames_step; [apply same_keeps, Sm; exact Na|intros x X; exact X|auto|exact Hk].
  - cbn [concat app] in *. apply nodup_app. split; auto. split; auto. intros x X Y. apply (NX x X). cbn. auto.
  - intros x ix X. destruct (Nat.eq_dec a x) as [<-|Nx]; [rewrite (upd_here _ _ _ _ N) in X; discriminate|]. rewrite nth_error_upd_ne in X; auto.
  - intros e X. rewrite upd_length. auto.
  - destruct (act_cons _ _ _ v_act0 eq_refl) as (x & o' & Eo & Hm & Ho). rewrite Eo. cbn. constructor; auto.
  - intros e X Y. destruct (v_take0 e X Y) as (X1 & X2). split; auto. intros Z. destruct (X2 Z) as [W|(sid & dn & [W|W])]; [auto|discriminate|]. right. exists sid, dn. right. auto.
  - intros Nn x ix X. destruct (Nat.eq_dec a x) as [<-|Nx]; [rewrite (upd_here _ _ _ _ N) in X; discriminate|]. rewrite nth_error_upd_ne in X by auto.
    specialize (v_live0 Nn x ix X). cbn in *. rewrite in_app_iff in *. cbn in v_live0. intuition congruence.
Qed.

Lemma INV_finish h h' oq oq' srcs srcs' nxt f k tr tr1 ev L1 L2 D Ds :
  INV h oq srcs nxt (f :: k) tr L1 L2 (D :: Ds) ->
  (exists w, f = FAllLoop w /\ ev = EAllEnd /\ L1 = [] /\ h' = h) \/
  (exists a tag, (f = FTagFirstCb a tag \/ f = FTagMidCb a tag) /\ ev = ETagEnd tag true /\ h' = upd h a None) ->
  (tr1 = tr /\ oq' = oq /\ srcs' = srcs /\
     ((exists q, oq = Some q /\ (L1 ++ L2 <> [] \/ q_source q = 0%nat)) \/ (exists a tag, f = FTagMidCb a tag))) \/
  (exists q, oq = Some q /\ L1 ++ L2 = [] /\ q_source q <> 0%nat /\ tr1 = EUnsource (q_source q) :: tr /\ oq' = Some (set_source q 0) /\
     srcs' = without srcs (q_source q)) ->
  INV h' oq' srcs' nxt k (ev :: tr1) L1 L2 Ds.
Proof.
  intros [] Hf Hs. inversion v_frames0 as [|? ? ? ? Hi Hk]; subst. clear v_frames0.
  pose proof (proj1 (nodup_app _ _) v_nodup0) as (NL & NDs & NX). cbn in NDs. apply nodup_app in NDs. destruct NDs as (ND & NDs & NX2). cbn [concat] in NX.
  assert (Sm : same h h' (L1 ++ L2) /\ same h h' (concat Ds) /\ length h' = length h /\ (forall x ix, nth_error h' x = Some (Some ix) -> nth_error h x = Some (Some ix))).
  { destruct Hf as [(w & -> & -> & -> & ->)|(a & tag & Ef & -> & ->)].
    - repeat split; auto; intros x X; reflexivity.
    - assert (D = [a] /\ alive h a) as (-> & it & N) by (destruct Ef as [-> | ->]; exact Hi). split; [|split; [|split]].
      + apply same_upd. intros I. apply (NX a I). cbn. auto.
      + apply same_upd. intros I. apply (NX2 a); cbn; auto.
      + apply upd_length.
      + intros x ix X. destruct (Nat.eq_dec a x) as [<-|Nx]; [rewrite (upd_here _ _ _ _ N) in X; discriminate|]. rewrite nth_error_upd_ne in X; auto. }
  destruct Sm as (SmL & SmD & Ln & Hh).
  assert (Nn : nonnull f = true). { destruct Hf as [(w & -> & _)|(a & tag & [-> | ->] & _)]; reflexivity. }
  destruct (act_cons _ _ _ v_act0 Nn) as (o & o' & Eo & Hm & Ho).
  assert (A1 : active tr1 = active tr) by (destruct Hs as [(-> & _)|(q & _ & _ & _ & -> & _)]; reflexivity).
  assert (A : active (ev :: tr1) = o'). { destruct Hf as [(w & _ & -> & _)|(a & tag & _ & -> & _)]; cbn [active]; rewrite A1, Eo; reflexivity. }
  assert (P1 : pending tr1 = pending tr) by (destruct Hs as [(-> & _)|(q & _ & _ & _ & -> & _)]; reflexivity).
  assert (P : pending (ev :: tr1) = pending tr). { rewrite <- P1. destruct Hf as [(w & _ & -> & _)|(a & tag & _ & -> & _)]; reflexivity. }
  assert (So : sources (ev :: tr1) = sources tr1). { destruct Hf as [(w & _ & -> & _)|(a & tag & _ & -> & _)]; reflexivity. }
  assert (Ic : forall x, In x tr -> In x (ev :: tr1)). { intros x X. destruct Hs as [(-> & _)|(q & _ & _ & _ & -> & _)]; cbn; auto. }
  assert (Jc : forall x, In x (ev :: tr1) -> x = ev \/ In x tr \/ exists i, x = EUnsource i).
  { intros x [X|X]; auto. destruct Hs as [(-> & _)|(q & _ & _ & _ & -> & _)]; auto. destruct X as [<-|X]; eauto. }
  assert (Nev : (forall x, EAdd x <> ev) /\ (forall x, ETake x <> ev) /\ (forall x, ECancel x <> ev) /\ (forall x d, EDestroy x d <> ev)).
  { destruct Hf as [(w & _ & -> & _)|(a & tag & _ & -> & _)]; repeat split; discriminate. }
  destruct Nev as (Na & Nt & Nc & Nd).
  assert (Ad : forall x, In (EAdd x) (ev :: tr1) -> In (EAdd x) tr).
  { intros x X. destruct (Jc _ X) as [Y|[Y|(i & Y)]]; auto; [exfalso; eapply Na; eauto|discriminate]. }
  assert (G1 : good tr1). { destruct Hs as [(-> & _)|(q & -> & EL & Es & -> & _)]; auto. split; auto. cbn. rewrite <- v_sources0.
    destruct v_q0 as (_ & _ & _ & [(Z & _)|(_ & b & -> & _)] & _); [contradiction|]. cbn. auto. }
  constructor; rewrite ?P, ?A, ?So; auto.
  - destruct Hs as [(-> & -> & -> & Hq)|(q & -> & EL & Es & -> & -> & ->)].
    + destruct oq as [q|]; auto. destruct v_q0 as (B1 & B2 & B3 & B4 & B5 & B6). split; [eapply lseg_same; eauto|]. split; auto.
      split; [eapply entries_keeps; eauto; apply same_keeps; auto|]. split; [|split; auto].
      * eapply srcok_mono; [|exact B4]. intros g [<-|Ig] Eg; [|exists g; auto]. exfalso. apply Eg. destruct Hf as [(w & -> & _)|(a & tag & [-> | ->] & _)]; reflexivity.
      * destruct Hq as [(q' & Eq & [NeL|Z])|(a' & tag' & ->)]; [injection Eq as <-|injection Eq as <-|exact B6].
        -- destruct Hf as [(w & -> & _ & -> & _)|(a & tag & [-> | ->] & _)]; [apply cov_none; auto| |exact B6]. cbn in B6. eapply cov_mono; eauto. contradiction.
        -- destruct Hf as [(w & -> & _ & -> & _)|(a & tag & [-> | ->] & _)]; [rewrite Z; apply cov_zero| |exact B6]. cbn in B6.
           assert (L1 ++ L2 = []) as EL. { destruct (L1 ++ L2) eqn:X; auto. exfalso. apply B5; [discriminate|auto]. }
           apply app_eq_nil in EL. destruct EL as (-> & ->). rewrite Z. apply cov_zero.
    + destruct v_q0 as (B1 & B2 & B3 & B4 & B5 & B6). rewrite EL in *. cbn [set_source q_first q_last q_source]. split; [exact B1|]. split; auto.
      split; [inversion B3; constructor|]. split; [|split; [congruence|]].
      * left. split; auto. destruct B4 as [(Z & _)|(_ & b & -> & _)]; [contradiction|]. cbn. rewrite Nat.eqb_refl. reflexivity.
      * apply app_eq_nil in EL. destruct EL as (-> & ->). apply cov_zero.
  - destruct v_done0 as (F1 & F2). split; (eapply flag_same; [eapply same_incl; [|exact SmL]|]; eauto); intros x X; apply in_app_iff; auto.
  - eapply frames_step; [apply same_keeps; exact SmD|exact Ic| |exact Hk]. intros x _ (d & X). destruct (Jc _ X) as [Y|[Y|(i & Y)]]; [exfalso; eapply Nd; eauto|exists d; auto|discriminate].
  - apply nodup_app. split; auto. split; auto. intros x X Y. apply (NX x X). rewrite in_app_iff. auto.
  - intros x X. rewrite Ln. auto.
  - split; auto. destruct Hf as [(w & -> & -> & -> & _)|(a & tag & Ef & -> & _)].
    + destruct o as [|b|]; cbn in Hm; try contradiction. cbn [legal]. exists b, o'. rewrite A1. split; auto. intros e Ie Ip. rewrite P1 in Ip.
      assert (exists q, oq = Some q) as (q & ->). { destruct Hs as [(_ & _ & _ & [(q & Eq & _)|(a & tag & X)])|(q & Eq & _)]; eauto; discriminate. }
      destruct v_q0 as (_ & _ & B3 & _). apply (v_snap0 (OAll b) e); auto; [rewrite Eo; cbn; auto|]. rewrite <- (entries_ids _ _ _ B3). apply in_map. auto.
    + cbn [legal]. split; [|discriminate]. exists o'. rewrite A1, Eo. f_equal. destruct o as [| |t [|]]; destruct Ef as [-> | ->]; cbn in Hm; try contradiction; congruence.
  - destruct Hf as [(w & _ & _ & -> & _)|(a & tag & Ef & _)]; [intros x []|]. rewrite Eo in v_scope0. destruct o; destruct Ef as [-> | ->]; cbn in Hm; try contradiction; exact v_scope0.
  - intros x e X Y. apply (v_snap0 x e); auto. rewrite Eo. cbn. auto.
  - destruct Hs as [(-> & _ & -> & _)|(q & _ & _ & _ & -> & _ & ->)]; auto. cbn [sources]. rewrite without_fst, v_sources0. reflexivity.
  - split; [tauto|]. intros x X. apply v_ids0. destruct Hs as [(_ & _ & -> & _)|(q & _ & _ & _ & _ & _ & ->)]; auto. apply filter_In in X. tauto.
  - intros e X Y Z. destruct (Jc _ Y) as [W|[W|(i & W)]]; [exfalso; eapply Nc; eauto|auto|discriminate].
  - intros e X Y. destruct (Jc _ Y) as [W|[W|(i & W)]]; [exfalso; eapply Nt; eauto| |discriminate]. destruct (v_take0 e (Ad _ X) W) as (X1 & X2). split; auto. intros Z.
    destruct (X2 Z) as [V|(sid & dn & [V|V])]; [auto| |right; eauto]. destruct Hf as [(w & -> & _)|(a & tag & [-> | ->] & _)]; discriminate.
  - apply tl_forall. exact v_code0.
  - intros Nn0 x ix X. assert (Nq : oq <> None). { destruct Hs as [(_ & -> & _)|(q & -> & _)]; [auto|discriminate]. }
    pose proof (v_live0 Nq x ix (Hh x ix X)) as Y. cbn in Y. rewrite !in_app_iff in *. destruct Y as [Y|[Y|Y]]; auto. exfalso.
    destruct Hf as [(w & -> & _)|(a & tag & Ef & _ & ->)].
    + cbn in Hi. subst D. destruct Y.
    + assert (D = [a] /\ alive h a) as (-> & it & N) by (destruct Ef as [-> | ->]; exact Hi). destruct Y as [<-|[]].
      rewrite (upd_here _ _ _ _ N) in X. discriminate.
Qed.

(* ---------------- addition ---------------- *)
Lemma entries_fwd h h' l es : (forall x it, In x l -> nth_error h x = Some (Some it) -> exists it', nth_error h' x = Some (Some it') /\ entry_of x it' = entry_of x it) ->
  Forall2 (is_entry h) l es -> Forall2 (is_entry h') l es.
Proof.
  intros K F. induction F as [|a e l es (it & N & ->) F IH]; constructor.
  - destruct (K a it (or_introl eq_refl) N) as (it' & N' & E). exists it'. auto.
  - apply IH. intros x ix X. apply K. cbn. auto.
Qed.
Lemma lasto_snoc l a : lasto (l ++ [a]) = Some a.
Proof. induction l as [|x l IH]; auto. destruct l; auto. Qed.
Lemma lasto_inv l a : lasto l = Some a -> exists l0, l = l0 ++ [a].
Proof.
  induction l as [|x l IH]; [discriminate|]. destruct l as [|y l].
  - cbn. intros E. injection E as ->. exists []. reflexivity.
  - intros E. destruct (IH E) as (l0 & ->). exists (x :: l0). reflexivity.
Qed.
Lemma lasto_none l : lasto l = None -> l = [].
Proof. induction l as [|x [|y l] IH]; auto; try discriminate. intros E. specialize (IH E). discriminate. Qed.
Lemma lseg_snoc h h' l a : forall L0 p, NoDup (L0 ++ [l]) -> lseg h p (L0 ++ [l]) ->
  (forall x, In x L0 -> nth_error h' x = nth_error h x) -> (exists it, nth_error h' l = Some (Some it) /\ it_next it = Some a) ->
  (exists it, nth_error h' a = Some (Some it) /\ it_next it = None) -> lseg h' p ((L0 ++ [l]) ++ [a]).
Proof.
  induction L0 as [|x L0 IH]; cbn [app]; intros p ND R O (il & Nl & El) Ha.
  - destruct R as (-> & it & N & E). cbn. split; auto. exists il. split; [exact Nl|]. rewrite El. destruct Ha as (ia & Na & Ea). split; [reflexivity|]. exists ia. auto.
  - destruct R as (-> & it & N & R). cbn. split; auto. exists it. rewrite O by (cbn; auto). split; [exact N|]. inversion ND; subst. apply IH; eauto.
    intros y Y. apply O. cbn. auto.
Qed.

Lemma INV_add h q srcs nxt k tr L1 L2 Ds tag data run destroy :
  INV h (Some q) srcs nxt k tr L1 L2 Ds -> Forall (fun f => is_cb f = true) k ->
  let a := length h in
  let e := Entry a tag data run destroy in
  let new := Item None tag data run destroy false in
  let src := if Nat.eqb (q_source q) 0 then nxt else q_source q in
  exists h', match q_last q with
             | Some l => exists it, nth_error (h ++ [Some new]) l = Some (Some it) /\ h' = upd (h ++ [Some new]) l (Some (set_next it (Some a)))
             | None => h' = h ++ [Some new]
             end /\
    INV h' (Some (Queue (q_refs q) src (match q_last q with Some _ => q_first q | None => Some a end) (Some a)))
      (if Nat.eqb (q_source q) 0 then srcs ++ [(nxt, false)] else srcs) (if Nat.eqb (q_source q) 0 then S nxt else nxt) k
      (if Nat.eqb (q_source q) 0 then ESource nxt :: EAdd e :: tr else EAdd e :: tr) L1 (L2 ++ [a]) Ds.
Proof.
  intros [] Cb a e new src. destruct v_q0 as (R & La & En & Sr & Ne & Co). set (L := L1 ++ L2) in *. rewrite La.
  set (h1 := h ++ [Some new]). set (tr' := if Nat.eqb (q_source q) 0 then ESource nxt :: EAdd e :: tr else EAdd e :: tr).
  pose proof (proj1 (nodup_app _ _) v_nodup0) as (NL & NDs & NX).
  assert (AL : forall x, In x L -> alive h x) by (intros; eapply lseg_alive; eauto).
  assert (AD : forall x, In x (concat Ds) -> alive h x) by (intros; eapply frames_alive; eauto).
  assert (Na : nth_error h1 a = Some (Some new)). { unfold h1, a. rewrite nth_error_app2, Nat.sub_diag; auto. }
  assert (NaL : ~ In a L). { intros I. pose proof (alive_lt _ _ (AL a I)). unfold a in *. lia. }
  assert (NaD : ~ In a (concat Ds)). { intros I. pose proof (alive_lt _ _ (AD a I)). unfold a in *. lia. }
  assert (Hh : exists h', match lasto L with
     | Some l => exists it, nth_error h1 l = Some (Some it) /\ h' = upd h1 l (Some (set_next it (Some a)))
     | None => h' = h1 end /\
     lseg h' (match lasto L with Some _ => q_first q | None => Some a end) (L ++ [a]) /\ length h' = S (length h) /\
     (forall x ix, nth_error h x = Some (Some ix) -> exists ix', nth_error h' x = Some (Some ix') /\ entry_of x ix' = entry_of x ix /\ it_completed ix' = it_completed ix) /\
     (forall x ix', nth_error h' x = Some (Some ix') -> x = a /\ ix' = new \/ exists ix, nth_error h x = Some (Some ix) /\ entry_of x ix' = entry_of x ix) /\
     same h h' (concat Ds) /\ nth_error h' a = Some (Some new)).
  { assert (Old : forall x ix, nth_error h x = Some (Some ix) -> nth_error h1 x = Some (Some ix)).
    { intros x ix X. unfold h1. rewrite nth_error_app1; auto. apply nth_error_Some. congruence. }
    assert (Bk : forall x ix, nth_error h1 x = Some (Some ix) -> x = a /\ ix = new \/ nth_error h x = Some (Some ix)).
    { intros x ix X. destruct (Nat.eq_dec x a) as [->|Nx]; [left; split; auto; congruence|]. right. unfold h1 in X.
      assert (x < length h)%nat. { assert (x < length h1)%nat by (apply nth_error_Some; unfold h1; congruence). unfold h1 in *. rewrite app_length in *. cbn in *. unfold a in *. lia. }
      rewrite nth_error_app1 in X; auto. }
    assert (Ln1 : length h1 = S (length h)) by (unfold h1; rewrite app_length; cbn; lia).
    destruct (lasto L) as [l|] eqn:El.
    - destruct (lasto_inv _ _ El) as (L0 & EL). assert (IlL : In l L) by (rewrite EL, in_app_iff; cbn; auto). destruct (AL l IlL) as (it & Nl).
      assert (Nla : l <> a) by (intros ->; contradiction).
      exists (upd h1 l (Some (set_next it (Some a)))). split; [exists it; split; auto|]. split; [|split; [|split; [|split; [|split]]]].
      + rewrite EL in *. apply (lseg_snoc h); auto.
        * intros x X. rewrite nth_error_upd_ne. { destruct (AL x ltac:(apply in_app_iff; auto)) as (ix & Nx). rewrite Nx. auto. }
          intros ->. apply NoDup_remove_2 in NL. rewrite app_nil_r in NL. contradiction.
        * exists (set_next it (Some a)). split; auto. eapply upd_here. eauto.
        * exists new. rewrite nth_error_upd_ne by auto. auto.
      + rewrite upd_length. auto.
      + intros x ix X. destruct (Nat.eq_dec l x) as [<-|Nx].
        * exists (set_next it (Some a)). rewrite (upd_here _ _ _ _ (Old _ _ X)). split; auto. assert (it = ix) as -> by congruence. auto.
        * exists ix. rewrite nth_error_upd_ne by auto. auto.
      + intros x ix X. destruct (Nat.eq_dec l x) as [<-|Nx].
        * rewrite (upd_here _ _ _ _ (Old _ _ Nl)) in X. injection X as <-. right. exists it. auto.
        * rewrite nth_error_upd_ne in X by auto. destruct (Bk _ _ X); eauto.
      + intros x X. rewrite nth_error_upd_ne by (intros ->; apply (NX x IlL X)). destruct (AD x X) as (ix & Nx). rewrite Nx. auto.
      + rewrite nth_error_upd_ne by auto. auto.
    - assert (EL : L = []) by (apply lasto_none; auto). exists h1. rewrite EL. split; auto. split; [cbn; eauto|]. split; auto. split; [|split; [|split]]; auto.
      + intros x ix X. exists ix. auto.
      + intros x ix X. destruct (Bk _ _ X); eauto.
      + intros x X. destruct (AD x X) as (ix & Nx). rewrite Nx. auto. }
  destruct Hh as (h' & Eh & R' & Ln & Fwd & Bwd & SmD & Na'). exists h'. split; [exact Eh|].
  assert (EL' : L1 ++ L2 ++ [a] = L ++ [a]) by (unfold L; apply app_assoc).
  assert (P : pending tr' = pending tr ++ [e]) by (unfold tr'; destruct (Nat.eqb (q_source q) 0); reflexivity).
  assert (A : active tr' = active tr) by (unfold tr'; destruct (Nat.eqb (q_source q) 0); reflexivity).
  assert (Ic : forall x, In x tr -> In x tr') by (unfold tr'; intros x X; destruct (Nat.eqb (q_source q) 0); cbn; auto).
  assert (Ie : In (EAdd e) tr') by (unfold tr'; destruct (Nat.eqb (q_source q) 0); cbn; auto).
  assert (Jc : forall x, In x tr' -> In x tr \/ x = EAdd e \/ x = ESource nxt).
  { unfold tr'. intros x X. destruct (Nat.eqb (q_source q) 0); cbn in X; intuition auto. }
  assert (Ad : forall x, In (EAdd x) tr' -> In (EAdd x) tr \/ x = e).
  { intros x X. destruct (Jc _ X) as [Y|[Y|Y]]; auto; [right; congruence|discriminate]. }
  assert (Fr : forall x, In (EAdd x) tr -> e_id x <> a). { intros x X. specialize (v_fresh0 x X). unfold a. lia. }
  assert (Un : ~ In (ETake a) tr /\ ~ In (ECancel a) tr).
  { split; intros X; destruct (left_added tr a v_good0 ltac:(auto)) as (y & Iy & Ey); apply (Fr y Iy Ey). }
  constructor; rewrite ?EL', ?P, ?A; auto.
  - cbn [q_first q_last q_source]. split; auto. split; [rewrite lasto_snoc; auto|]. split; [|split; [|split]].
    + apply Forall2_app.
      * eapply entries_fwd; [|exact En]. intros x ix X Nx. destruct (Fwd x ix Nx) as (ix' & N' & E' & _). eauto.
      * constructor; [|constructor]. exists new. split; auto.
    + unfold src. destruct (Nat.eqb_spec (q_source q) 0) as [Z|Z]; auto. destruct Sr as [(_ & ->)|(Z' & _)]; [|contradiction]. right. split; [lia|]. exists false. split; auto. discriminate.
    + intros _. unfold src. destruct (Nat.eqb_spec (q_source q) 0) as [Z|Z]; auto. lia.
    + unfold src. destruct (Nat.eqb_spec (q_source q) 0) as [Z|Z].
      * assert (L = []) as EL. { destruct L eqn:X; auto. exfalso. apply Ne; [discriminate|auto]. }
        assert (L1 = []) as ->. { unfold L in EL. apply app_eq_nil in EL. tauto. } apply cov_none. destruct L; discriminate.
      * eapply cov_mono; [exact Co|auto|]. intros _ X. destruct L; discriminate.
  - destruct v_done0 as (F1 & F2). rewrite Forall_forall in F1, F2. split; [|apply Forall_app; split].
    + apply Forall_forall. intros x X. destruct (F1 x X) as (ix & Nx & Ex). destruct (Fwd x ix Nx) as (ix' & N' & _ & C'). exists ix'. split; auto. congruence.
    + apply Forall_forall. intros x X. destruct (F2 x X) as (ix & Nx & Ex). destruct (Fwd x ix Nx) as (ix' & N' & _ & C'). exists ix'. split; auto. congruence.
    + constructor; [|constructor]. exists new. auto.
  - eapply frames_step; [apply same_keeps; exact SmD|exact Ic| |exact v_frames0]. intros x _ (d & X). destruct (Jc _ X) as [Y|[Y|Y]]; try discriminate. exists d. auto.
  - rewrite <- app_assoc. cbn [app]. apply NoDup_Add with (a := a) (l := L ++ concat Ds); [apply Add_app|]. split; auto. rewrite in_app_iff. tauto.
  - intros x ix X. destruct (Bwd _ _ X) as [(-> & ->)|(ix0 & N0 & ->)]; auto.
  - intros x X. rewrite Ln. destruct (Ad _ X) as [Y| ->]; [specialize (v_fresh0 _ Y); lia|]. cbn. unfold a. lia.
  - assert (G1 : good (EAdd e :: tr)). { split; [exact Fr|auto]. } unfold tr'. destruct (Nat.eqb_spec (q_source q) 0) as [Z|Z]; auto. split; auto. cbn [legal sources].
    rewrite <- v_sources0. destruct Sr as [(_ & ->)|(Z' & _)]; [reflexivity|contradiction].
  - intros o y Io Iy X. apply in_app_iff in X. destruct X as [X|[X|[]]]; [eapply v_snap0; eauto|]. exfalso. apply (Fr y); auto. eapply before_added; eauto.
  - unfold tr'. destruct (Nat.eqb (q_source q) 0); cbn [sources]; auto. rewrite map_app, v_sources0. reflexivity.
  - destruct v_ids0 as (V1 & V2). destruct (Nat.eqb (q_source q) 0); [|auto]. split; [lia|]. intros x X. apply in_app_iff in X. destruct X as [X|[<-|[]]]; [specialize (V2 x X); lia|cbn; lia].
  - intros x X Y Z. apply Ic. destruct (Jc _ Y) as [Y'|[Y'|Y']]; try discriminate. destruct (Ad _ X) as [X'| ->]; auto. cbn in Y'. tauto.
  - intros x X Y. destruct (Jc _ Y) as [Y'|[Y'|Y']]; try discriminate. destruct (Ad _ X) as [X'| ->]; [|cbn in Y'; tauto].
    destruct (v_take0 x X' Y') as (X1 & X2). split; intros Z; auto. destruct (X2 Z); auto.
  - intros _ x ix X. destruct (Bwd _ _ X) as [(-> & _)|(ix0 & X0 & _)]; rewrite !in_app_iff; cbn; auto.
    specialize (v_live0 ltac:(discriminate) x ix0 X0). apply in_app_iff in v_live0. tauto.
Qed.

(* ---------------- the rest ---------------- *)
Lemma INV_tag_none h q srcs nxt k tr L1 L2 Ds tag : INV h (Some q) srcs nxt k tr L1 L2 Ds -> (forall e, In e (pending tr) -> e_tag e <> tag) ->
  INV h (Some q) srcs nxt k (ETagEnd tag false :: ETag tag :: tr) L1 L2 Ds.
Proof.
  intros [] Nt. constructor; auto.
  - apply frames_noev; [discriminate|]. apply frames_noev; [discriminate|]. auto.
  - intros a it X. right. right. auto.
  - intros e [X|[X|X]]; try discriminate. auto.
  - split; [|split; cbn; auto]. cbn [legal]. split; [cbn; eauto|]. intros _. exact Nt.
  - intros e [X|[X|X]] [Y|[Y|Y]] Z; try discriminate. right. right. auto.
  - intros e [X|[X|X]] [Y|[Y|Y]]; try discriminate. destruct (v_take0 e X Y) as (X1 & X2). split; intros Z; [right; right; auto|]. destruct (X2 Z); auto. left. right. right. auto.
Qed.
Lemma INV_null h oq srcs nxt k tr L1 L2 Ds d : INV h oq srcs nxt k tr L1 L2 Ds -> Forall (fun f => is_cb f = true) k ->
  INV h oq srcs nxt (FNullCb :: k) (ENullDestroy d :: tr) L1 L2 ([] :: Ds).
Proof.
  intros [] Cb. apply INV_neutral; [reflexivity|exact I|]. constructor; auto.
  - destruct oq; auto. destruct v_q0 as (A1 & A2 & A3 & A4 & A5 & A6). repeat (split; auto). eapply srcok_mono; [|exact A4]. intros f If Ef. exists f. cbn. auto.
  - constructor; auto. reflexivity.
  - intros e X Y. destruct (v_take0 e X Y) as (X1 & X2). split; auto. intros Z. destruct (X2 Z) as [W|(sid & dn & W)]; auto. right. exists sid, dn. right. auto.
Qed.
Lemma INV_unnull h oq srcs nxt k tr L1 L2 Ds : INV h oq srcs nxt (FNullCb :: k) tr L1 L2 Ds -> exists Ds', INV h oq srcs nxt k tr L1 L2 Ds'.
Proof.
  intros []. inversion v_frames0 as [|? D ? Ds' Hf Hk]; subst. cbn in Hf. subst. exists Ds'. constructor; auto.
  - destruct oq; auto. destruct v_q0 as (A1 & A2 & A3 & A4 & A5 & A6). repeat (split; auto). eapply srcok_mono; [|exact A4]. intros f [<-|If] Ef; [cbn in Ef; congruence|]. exists f. cbn. auto.
  - intros e X Y. destruct (v_take0 e X Y) as (X1 & X2). split; auto. intros Z. destruct (X2 Z) as [W|(sid & dn & [W|W])]; [auto|discriminate|]. right. exists sid, dn. auto.
  - apply tl_forall. exact v_code0.
Qed.
