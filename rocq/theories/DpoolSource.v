(* Sources: what the events tell about them, and whose sources are removed if no thread has a context of its own *)
From Verif Require Import Base DpoolModel DpoolSpec DpoolProofs.

(* ---------------- the sources which are waiting ---------------- *)
Definition SC (s : state) : Prop := forall p c id, In (c, id) (scheduled p (s_trace s)) <-> In (Src c id (Some p) SIdle) (s_srcs s).
Definition sdull (e : event) : bool := match e with ESource _ _ (Some _) | EUnsource _ _ _ _ _ | EIdle _ _ _ _ | EClosed _ _ _ => false | _ => true end.
Lemma sc_emit s e : SC s -> sdull e = true -> SC (emit s e).
Proof. intros H D p c id. rewrite <- (H p c id). flat. destruct e as [| | | | | | | | | | |c0 id0 [o|]| | | | | | | | | |]; try discriminate; reflexivity. Qed.
Lemma sched_filter c id l x : In x (filter (fun y => negb (is_pair c id y)) l) <-> In x l /\ x <> (c, id).
Proof.
  rewrite filter_In. destruct x as (c' & id'). unfold is_pair. cbn. destruct (Nat.eqb_spec c' c), (Nat.eqb_spec id' id); cbn; split; intros (A & B); split; auto; try congruence; try discriminate; try (exfalso; apply B; congruence); try (intros X; congruence).
Qed.
(* a source goes away, or is called, and the event tells which *)
Definition leaves (e : event) (c id : nat) : Prop := match e with EUnsource _ _ id' c' _ | EIdle _ c' id' _ | EClosed c' id' _ => c' = c /\ id' = id | _ => False end.
Lemma sc_leaves s l e c id : SC s -> leaves e c id -> (forall y, c_stat y = SIdle -> (In y l <-> In y (s_srcs s) /\ pair_of y <> (c, id))) -> SC (emit (set_srcs s l) e).
Proof.
  intros H L A p c' id'. flat. rewrite (A (Src c' id' (Some p) SIdle) eq_refl), <- (H p c' id'). unfold pair_of. cbn [c_ctx c_id].
  destruct e; cbn in L; try contradiction; destruct L as (-> & ->); cbn [scheduled]; apply sched_filter; auto.
Qed.
Lemma without_idle l c id : forall y, c_stat y = SIdle -> (In y (without l c id) <-> In y l /\ pair_of y <> (c, id)).
Proof. intros y _. apply without_in. Qed.
Lemma mark_idle l c id st : st <> SIdle -> forall y, c_stat y = SIdle -> (In y (mark l c id st) <-> In y l /\ pair_of y <> (c, id)).
Proof. intros N y Y. rewrite mark_in. split; [intros [(z & _ & _ & ->)|]; auto; cbn in Y; congruence|auto]. Qed.
Lemma sc_same s s' : SC s -> s_srcs s' = s_srcs s -> s_trace s' = s_trace s -> SC s'.
Proof. intros H A B p c id. rewrite A, B. apply H. Qed.

(* ---------------- no thread has a context of its own ---------------- *)
Definition next0 (s : state) : nat := match nth_error (s_ctxs s) 0 with Some (n, _) => n | None => 0%nat end.
Definition mine (s : state) (p id : nat) : Prop := (id < next0 s)%nat /\ forall y, In y (s_srcs s) -> pair_of y = (0%nat, id) -> c_owner y = Some p.
Definition frame_mine (s : state) (f : frame) : Prop := match f with FRemove p id _ => mine s p id | _ => True end.
Definition foreign (e : event) : Prop := match e with EUnsource _ p _ _ o => o <> Some p | _ => False end.
Record PL (s : state) : Prop := mkPL {
  l_ctx : forall t th, nth_error (s_threads s) t = Some th -> t_ctx th = 0%nat;
  l_idle : forall p q, nth_error (s_pools s) p = Some (Some q) -> mine s p (p_idle q);
  l_frame : forall t th f, nth_error (s_threads s) t = Some th -> In f (t_stack th) -> frame_mine s f;
  l_tr : forall e, In e (s_trace s) -> ~ foreign e }.

Lemma mine_sub s s' p id : mine s p id -> next0 s' = next0 s -> (forall y, In y (s_srcs s') -> exists y', In y' (s_srcs s) /\ pair_of y' = pair_of y /\ c_owner y' = c_owner y) -> mine s' p id.
Proof. intros (A & B) N S. split; [lia|]. intros y Y P. destruct (S y Y) as (y' & Y' & P' & <-). apply B; auto. congruence. Qed.
Lemma frame_mine_sub s s' f : frame_mine s f -> next0 s' = next0 s -> (forall y, In y (s_srcs s') -> exists y', In y' (s_srcs s) /\ pair_of y' = pair_of y /\ c_owner y' = c_owner y) -> frame_mine s' f.
Proof. destruct f; cbn; auto. intros. eapply mine_sub; eauto. Qed.
Lemma pl_emit s e : PL s -> ~ foreign e -> PL (emit s e).
Proof. intros A N. constructor; try apply A. intros x [<-|X]; auto. apply A; auto. Qed.
Lemma pl_srcs s l : PL s -> (forall y, In y l -> exists y', In y' (s_srcs s) /\ pair_of y' = pair_of y /\ c_owner y' = c_owner y) -> PL (set_srcs s l).
Proof.
  intros A S. constructor; try apply A.
  - intros p q Q. eapply mine_sub; [apply (l_idle _ A); eauto|reflexivity|exact S].
  - intros t th f E Fi. eapply frame_mine_sub; [eapply (l_frame _ A); eauto|reflexivity|exact S].
Qed.
Lemma without_sub l c id : forall y, In y (without l c id) -> exists y', In y' l /\ pair_of y' = pair_of y /\ c_owner y' = c_owner y.
Proof. intros y Y. apply without_in in Y. exists y. tauto. Qed.
Lemma mark_sub l c id st : forall y, In y (mark l c id st) -> exists y', In y' l /\ pair_of y' = pair_of y /\ c_owner y' = c_owner y.
Proof. intros y Y. apply mark_in in Y. destruct Y as [(z & Z & P & ->)|(Z & _)]; [exists z; auto|exists y; auto]. Qed.
Lemma pl_pool s p q q' : PL s -> nth_error (s_pools s) p = Some (Some q) -> (p_idle q' = p_idle q \/ mine s p (p_idle q')) -> PL (set_pool s p (Some q')).
Proof.
  intros A Q M. constructor; try apply A. intros r x. flat. destruct (Nat.eq_dec p r) as [<-|Ne]; [rewrite (upd_same _ _ _ Q)|rewrite upd_other by auto; apply (l_idle _ A)].
  intros X. injection X as <-. destruct M as [->|M]; auto. apply (l_idle _ A); auto.
Qed.
Lemma pl_gone s p : PL s -> PL (set_pool s p None).
Proof.
  intros A. constructor; try apply A. intros r x. flat. destruct (Nat.eq_dec p r) as [<-|Ne]; [|rewrite upd_other by auto; apply (l_idle _ A)].
  destruct (nth_error (s_pools s) p) as [o|] eqn:Q; [rewrite (upd_same _ _ _ Q); discriminate|]. rewrite (proj2 (nth_error_None _ _)); [discriminate|]. rewrite upd_length. apply nth_error_None; auto.
Qed.
Lemma pl_thread s t th th' : PL s -> nth_error (s_threads s) t = Some th -> t_ctx th' = 0%nat -> (forall f, In f (t_stack th') -> In f (t_stack th) \/ frame_mine s f) -> PL (set_threads s (upd (s_threads s) t th')).
Proof.
  intros A E C F. assert (D : forall u thu, nth_error (upd (s_threads s) t th') u = Some thu -> (u = t /\ thu = th') \/ nth_error (s_threads s) u = Some thu). { intros u thu Eu. destruct (Nat.eq_dec t u) as [<-|Ne]; [left; split; auto; rewrite (upd_same _ _ _ E th') in Eu; congruence|rewrite upd_other in Eu by auto; auto]. }
  constructor; try apply A; flat.
  - intros u thu Eu. destruct (D u thu Eu) as [(-> & ->)|Eu0]; auto. eapply l_ctx; eauto.
  - intros u thu f Eu Fi. destruct (D u thu Eu) as [(-> & ->)|Eu0]; [|eapply (l_frame _ A); eauto]. destruct (F f Fi) as [Fi0|]; auto. eapply (l_frame _ A); eauto.
Qed.
Lemma pl_source s c id o : Inv None s -> PL s -> nth_error (s_ctxs s) c = Some (id, true) -> PL (attached s c id o).
Proof.
  intros I A N. assert (M : forall p x, mine s p x -> mine (attached s c id o) p x).
  { intros p x (M1 & M2). split.
    - unfold next0, attached in *. flat. destruct (Nat.eq_dec c 0) as [->|Ne]; [rewrite (upd_same _ _ _ N); rewrite N in M1; lia|rewrite upd_other by auto; auto].
    - unfold attached. flat. intros y Y P. apply in_app_iff in Y. destruct Y as [Y|[<-|[]]]; auto. unfold pair_of in P. cbn in P. injection P as -> ->. unfold next0 in M1. rewrite N in M1. lia. }
  constructor; try apply A.
  - intros p q Q. apply M, (l_idle _ A); auto.
  - intros t th f E Fi. pose proof (l_frame _ A t th f E Fi) as X. destruct f; auto. apply M; auto.
  - intros e [<-|X]; [cbn; auto|apply A; auto].
Qed.
Lemma zero_mine s p : Inv None s -> mine s p 0.
Proof.
  intros I. split.
  - unfold next0. pose proof (i_zero _ _ I) as Z. unfold is_open in Z. destruct (nth_error (s_ctxs s) 0) as [(n & b)|] eqn:E; [|discriminate]. subst b. eapply i_pos; eauto.
  - intros y Y P. unfold pair_of in P. injection P as _ P. destruct (i_next _ _ I y Y) as (n & b & _ & N0 & _). contradiction.
Qed.

(* ---------------- one step ---------------- *)
Lemma drop_shape s s' t th p : nth_error (s_threads s) t = Some th -> drop s t p = Ok s' -> exists q, nth_error (s_pools s) p = Some (Some q) /\
  let s1 := set_pool s p (Some (Pool (p_refs q - 1) (p_idle q) (p_thread q) (p_items q))) in
  ((p_refs q <> 1 /\ s' = s1) \/ (p_refs q = 1 /\ s' = set_threads (emit s1 (EZero p)) (upd (s_threads s) t (with_stack th (FLoop p WFinal :: t_stack th))))).
Proof.
  intros E. unfold drop. destruct (the_pool s p) as [q|] eqn:Q; [|discriminate]. cbn [bind]. unfold the_pool in Q. destruct (nth_error (s_pools s) p) as [[q0|]|] eqn:Q0; try discriminate. injection Q as <-. exists q0. split; auto.
  destruct (Z.eqb_spec (p_refs q0 - 1) 0); injection H as <-; [right|left]; split; auto; try lia. rewrite (push_eq _ _ th) by exact E. reflexivity.
Qed.
Lemma drop_pl s s' t th p : PL s -> nth_error (s_threads s) t = Some th -> drop s t p = Ok s' -> PL s'.
Proof.
  intros A E D. destruct (drop_shape _ _ _ _ _ E D) as (q & Q & [(_ & ->)|(_ & ->)]).
  - eapply pl_pool; eauto.
  - match goal with |- PL (set_threads ?s0 _) => apply (pl_thread s0 t th) end; [apply pl_emit; [eapply pl_pool; eauto|auto]|exact E|apply (l_ctx _ A _ _ E)|]. intros f [<-|F]; [right; exact Logic.I|auto].
Qed.
Lemma drop_sc s s' t th p : SC s -> nth_error (s_threads s) t = Some th -> drop s t p = Ok s' -> SC s'.
Proof.
  intros A E D. destruct (drop_shape _ _ _ _ _ E D) as (q & Q & [(_ & ->)|(_ & ->)]); [exact A|]. apply (sc_emit _ (EZero p)) in A; auto.
Qed.
Lemma client_sc s s' t th a : Inv None s -> SC s -> nth_error (s_threads s) t = Some th -> client s t th a = Ok s' -> SC s'.
Proof.
  intros I A E. assert (Same : Ok s = Ok s' -> SC s') by (intros X; injection X as <-; auto). destruct a as [| |c| |c id|c|c|c|b n]; cbn [client]; auto.
  - unfold do_call. destruct (get_default s t th) as (s1 & p) eqn:D. assert (A1 : SC s1 /\ nth_error (s_threads s1) t = Some (with_slot th (Some p)) /\ s_srcs s1 = s_srcs s /\ s_ctxs s1 = s_ctxs s).
    { destruct (default_ok _ _ _ _ _ I E D) as (I1 & E1 & Cx & Sr & _). split; auto. unfold get_default in D. destruct (t_slot th); injection D as <- <-; [apply sc_emit; auto|]. rewrite (on_thread_eq _ _ th) by exact E. apply sc_emit; [|reflexivity].
      apply (sc_emit _ (ENew t (length (s_pools s)))) in A; auto. }
    destruct A1 as (A1 & E1 & _). destruct c as [|d| | |r].
    + intros X. injection X as <-. exact A1.
    + unfold add. rewrite D. destruct (the_pool _ p) as [q|]; [|discriminate]. cbn [bind]. apply (sc_emit _ (EAdd t p (s_items s1) d)) in A1; [|reflexivity]. destruct (Nat.eqb (p_idle q) 0).
      * unfold attach. flat. destruct (nth_error (s_ctxs s1) (t_ctx th)) as [(id & [|])|]; cbn [bind]; try discriminate. intros X. injection X as <-. intros p0 c0 id0. flat. cbn [scheduled]. specialize (A1 p0 c0 id0). cbn [scheduled emit s_trace s_srcs] in A1. rewrite in_app_iff. cbn [In].
        destruct (Nat.eqb_spec p p0) as [<-|Ne].
        -- rewrite in_app_iff, A1. cbn [In]. split; (intros [H|[H|[]]]; [auto|injection H as <- <-; auto]).
        -- rewrite A1. split; auto. intros [H|[H|[]]]; auto. congruence.
      * intros X. injection X as <-. exact A1.
    + intros X. injection X as <-. rewrite (push_eq _ _ (with_slot th (Some p))) by exact E1. apply (sc_emit _ (EDrain t p)) in A1; auto.
    + destruct (the_pool s1 p) as [q|]; [|discriminate]. cbn [bind]. intros X. injection X as <-. apply (sc_emit _ (ERef p)) in A1; auto.
    + intros X. refine (drop_sc _ _ t th r _ _ X); [apply sc_emit; auto|exact E].
  - destruct (is_open s c); auto. unfold dispatch. destruct (find _ (s_srcs s)) as [y|] eqn:Fd; auto. destruct (c_owner y) as [p|]; [|intros X; injection X as <-; apply sc_emit; auto]. destruct (c_stat y); auto.
    destruct (the_pool _ p) as [q|]; [|discriminate]. cbn [bind]. intros X. injection X as <-. rewrite (push_eq _ _ th) by exact E. eapply sc_same; [eapply (sc_leaves s (mark (s_srcs s) c id SRun) (EIdle t c id p)); [exact A|cbn; auto|apply mark_idle; discriminate]|reflexivity..].
  - intros X. injection X as <-. destruct (is_open s c); auto. rewrite (on_thread_eq _ _ _ _ E). exact A.
  - destruct (is_open s c); auto. unfold attach. destruct (nth_error (s_ctxs s) c) as [(id & [|])|]; cbn [bind]; try discriminate. intros X. injection X as <-. intros p0 c0 id0. flat. cbn [scheduled]. rewrite (A p0 c0 id0), in_app_iff. cbn [In]. split; auto. intros [|[H|[]]]; auto. discriminate.
  - intros X. injection X as <-. destruct (unused s c); auto. rewrite (push_eq _ _ th) by exact E. exact A.
Qed.
Lemma drain_end_sc s s' t th f k p w : Inv None s -> SC s -> nth_error (s_threads s) t = Some th -> t_stack th = f :: k -> fcaller f = Some (p, w) -> drain_end s t p w = Ok s' -> SC s'.
Proof.
  intros I A E St G. unfold drain_end. rewrite (pop_eq _ _ _ _ _ E St). assert (Fi : In f (t_stack th)) by (rewrite St; cbn; auto). destruct w as [|c id|].
  - intros X. injection X as <-. apply (sc_emit _ (EDrained t p WClient)) in A; auto.
  - unfold idle_end. intros X. refine (drop_sc _ _ t _ p _ _ X); [|flat; apply (upd_same _ _ _ E)]. destruct (i_run _ _ I _ _ _ _ _ _ E Fi G) as (st & Ns & Y).
    intros p0 c0 id0. flat. cbn [scheduled]. rewrite (A p0 c0 id0), without_in. split; [|tauto]. intros Y0. split; auto. intros P. unfold pair_of in P. cbn in P. injection P as -> ->.
    assert (Z : Src c id (Some p0) SIdle = Src c id (Some p) st) by (eapply pair_inj; [apply (i_ids _ _ I)|auto..]). injection Z as _ Z. congruence.
  - flat. destruct (nth_error (s_pools s) p) as [[q|]|]; try discriminate. intros X. injection X as <-. apply (sc_emit _ (EDrained t p WFinal)) in A; [|reflexivity]. apply (sc_emit _ (EGone p)) in A; [|reflexivity]. exact A.
Qed.
Lemma step_sc s s' x : Inv None s -> SC s -> step s x = Ok s' -> SC s'.
Proof.
  intros I A. destruct x as (t & a). unfold step. assert (Same : Ok s = Ok s' -> SC s') by (intros X; injection X as <-; auto). destruct (nth_error (s_threads s) t) as [th|] eqn:E; auto. destruct (t_stack th) as [|f k] eqn:St.
  - destruct (t_life th) eqn:L; auto.
    + destruct a; auto. destruct (existsb _ (s_threads s)); auto. intros X. injection X as <-. rewrite (on_thread_eq _ _ _ _ E). apply sc_emit; auto.
    + destruct a as [| |c| |c id|c|c|c|b n]; try (intros; eapply client_sc; eauto; fail). intros X. injection X as <-. rewrite (on_thread_eq _ _ _ _ E). apply sc_emit; auto.
      rewrite (push_eq _ _ (with_ctx (with_life th Exiting) (if b then 0 else t_ctx th)%nat)) by apply (upd_same _ _ _ E). exact A.
  - destruct f as [p w|p l w|p l w|p id w|p w|p c id|n|c].
    + destruct a; auto. unfold loop. destruct (the_pool s p) as [q|]; [|discriminate]. cbn [bind]. destruct (p_items q) as [|i l].
      * destruct (Nat.eqb (p_idle q) 0); [eapply drain_end_sc; eauto; reflexivity|]. intros X. injection X as <-. rewrite (swap_eq _ t th (FLoop p w) k); [|exact E|exact St]. exact A.
      * intros X. injection X as <-. rewrite (swap_eq _ t th (FLoop p w) k); [|exact E|exact St]. apply (sc_emit _ (EBatch t p)) in A; auto.
    + destruct a; auto. unfold batch. destruct l as [|(i & d) l]; intros X; injection X as <-; [rewrite (swap_eq _ t th (FBatch p [] w) k); [|exact E|exact St]; exact A|]. rewrite (swap_eq _ t th (FBatch p ((i, d) :: l) w) k); [|exact E|exact St]. apply (sc_emit _ (EDestroy t p i d)) in A; auto.
    + destruct a as [| |c| |c id|c|c|c|b n]; try (intros; eapply client_sc; eauto; fail). intros X. injection X as <-. rewrite (swap_eq _ t th (FCb p l w) k); [|exact E|exact St]. apply (sc_emit _ (EReturn t)) in A; auto.
    + destruct a; auto. unfold remove. rewrite (swap_eq _ t th (FRemove p id w) k); [|exact E|exact St]. flat. pose proof (upd_same _ _ _ E (with_stack th (FRemoved p w :: k))) as Eq. destruct (find _ (s_srcs s)) as [y|] eqn:Fd; [|intros X; injection X as <-; apply (sc_emit _ (EBad t p id)) in A; auto].
      assert (W : SC (emit (set_srcs s (without (s_srcs s) 0 id)) (EUnsource t p id 0 (c_owner y)))) by (apply (sc_leaves _ _ _ 0%nat id); [exact A|cbn; auto|apply without_idle]).
      assert (M : SC (emit (set_srcs s (mark (s_srcs s) 0 id SGone)) (EUnsource t p id 0 (c_owner y)))) by (apply (sc_leaves _ _ _ 0%nat id); [exact A|cbn; auto|apply mark_idle; discriminate]).
      destruct (c_owner y) as [o|]; [destruct (c_stat y)|]; intros X; [|injection X as <-; exact M|injection X as <-; exact M|injection X as <-; exact W]. refine (drop_sc _ _ t _ o _ _ X); [exact W|exact Eq].
    + destruct a; auto. eapply drain_end_sc; eauto.
    + destruct a; auto. unfold idle_end. rewrite (pop_eq _ _ _ _ _ E St). intros X. refine (drop_sc _ _ t _ p _ _ X); [|flat; apply (upd_same _ _ _ E)]. assert (Fi : In (FOther p c id) (t_stack th)) by (rewrite St; cbn; auto). destruct (i_run _ _ I _ _ _ _ _ _ E Fi eq_refl) as (st & Ns & Y).
      intros p0 c0 id0. flat. cbn [scheduled]. rewrite (A p0 c0 id0), without_in. split; [|tauto]. intros Y0. split; auto. intros P. unfold pair_of in P. cbn in P. injection P as -> ->.
      assert (Z : Src c id (Some p0) SIdle = Src c id (Some p) st) by (eapply pair_inj; [apply (i_ids _ _ I)|auto..]). injection Z as _ Z. congruence.
    + destruct a; auto. unfold exit_step. destruct (t_slot th) as [p|]; [|destruct n]; try (intros X; injection X as <-; rewrite (pop_eq _ _ _ _ _ E St), (on_thread_eq _ _ (with_stack th k)) by apply (upd_same _ _ _ E); apply sc_emit; auto; fail). destruct n as [|n]; [intros X; injection X as <-; rewrite (pop_eq _ _ _ _ _ E St), (on_thread_eq _ _ (with_stack th k)) by apply (upd_same _ _ _ E); apply sc_emit; auto|].
      rewrite (on_thread_eq _ _ _ _ E). rewrite (swap_eq (set_threads s (upd (s_threads s) t (with_slot th None))) t (with_slot th None) (FExit (S n)) k (FExit n)); [|apply (upd_same _ _ _ E)|exact St]. flat. rewrite upd_twice. intros X. refine (drop_sc _ _ t _ p _ _ X); [exact A|flat; apply (upd_same _ _ _ E)].
    + destruct a; auto. unfold close_step. destruct (find _ (s_srcs s)) as [y|] eqn:Fd; [|intros X; injection X as <-; rewrite (pop_eq _ _ _ _ _ E St); exact A].
      assert (W : SC (emit (set_srcs s (without (s_srcs s) c (c_id y))) (EClosed c (c_id y) (c_owner y)))) by (apply (sc_leaves _ _ _ c (c_id y)); [exact A|cbn; auto|apply without_idle]).
      destruct (c_owner y) as [o|]; intros X; [|injection X as <-; exact W]. refine (drop_sc _ _ t _ o _ _ X); [exact W|exact E].
Qed.
Lemma pl_new s t : Inv None s -> PL s -> PL (set_pools s (s_pools s ++ [Some (Pool 1 0 t [])])).
Proof.
  intros I A. constructor; try apply A. intros p q. flat. destruct (lt_dec p (length (s_pools s))); [rewrite nth_error_app1 by auto; apply (l_idle _ A)|]. rewrite nth_error_app2 by lia. destruct (p - length (s_pools s))%nat as [|m]; [|destruct m; discriminate]. intros X. injection X as <-. exact (zero_mine s p I).
Qed.
Lemma default_pl s t th s' p : Inv None s -> PL s -> nth_error (s_threads s) t = Some th -> get_default s t th = (s', p) -> PL s'.
Proof.
  intros I A E. unfold get_default. destruct (t_slot th); intros X; injection X as <- <-; [apply pl_emit; auto|]. rewrite (on_thread_eq _ _ th) by exact E. apply pl_emit; [|cbn; auto].
  match goal with |- PL (set_threads ?s0 _) => apply (pl_thread s0 t th) end; auto; [apply pl_emit; [|cbn; auto]; apply pl_new; auto|]. apply (l_ctx _ A _ _ E).
Qed.
Lemma client_pl s s' t th a : Inv None s -> plain s (t, a) -> PL s -> nth_error (s_threads s) t = Some th -> client s t th a = Ok s' -> PL s'.
Proof.
  intros I Pl A E. assert (Same : Ok s = Ok s' -> PL s') by (intros X; injection X as <-; auto). pose proof (l_ctx _ A _ _ E) as Cx. destruct a as [| |c| |c id|c|c|c|b n]; cbn [client]; auto.
  - unfold do_call. destruct (get_default s t th) as (s1 & p) eqn:D. pose proof (default_pl _ _ _ _ _ I A E D) as A1. destruct (default_ok _ _ _ _ _ I E D) as (I1 & E1 & _ & _ & q & Q & _). destruct c as [|d| | |r].
    + intros X. injection X as <-. exact A1.
    + unfold add. rewrite D. set (s2 := emit _ _). assert (A2 : PL s2) by (apply (pl_emit _ (EAdd t p (s_items s1) d)) in A1; [|cbn; auto]; destruct A1; constructor; assumption). assert (I2 : Inv None s2) by (apply inv_emit; auto; apply inv_items; auto). assert (Q2 : nth_error (s_pools s2) p = Some (Some q)) by exact Q. rewrite (pool_at _ _ _ Q2). cbn [bind]. destruct (Nat.eqb (p_idle q) 0).
      * rewrite Cx. unfold attach. destruct (nth_error (s_ctxs s2) 0) as [(id & [|])|] eqn:N; cbn [bind]; try discriminate. intros X. injection X as <-. pose proof (pl_source s2 0%nat id (Some p) I2 A2 N) as A3. eapply (pl_pool (attached s2 0 id (Some p))); [exact A3|exact Q2|]. right. cbn [p_idle]. split.
        -- unfold next0, attached. flat. rewrite (upd_same _ _ _ N). lia.
        -- unfold attached. flat. intros y Y P. apply in_app_iff in Y. destruct Y as [Y|[<-|[]]]; auto. unfold pair_of in P. injection P as P1 P2. destruct (i_next _ _ I2 y Y) as (n & b & Nn & _ & Lt). rewrite P1, N in Nn. injection Nn as <- <-. specialize (Lt eq_refl). lia.
      * intros X. injection X as <-. eapply pl_pool; eauto.
    + intros X. injection X as <-. rewrite (push_eq _ _ (with_slot th (Some p))) by exact E1. match goal with |- PL (set_threads ?s0 _) => apply (pl_thread s0 t (with_slot th (Some p))) end; auto; [apply pl_emit; auto|]. intros f [<-|F]; [right; exact Logic.I|auto].
    + rewrite (pool_at _ _ _ Q). cbn [bind]. intros X. injection X as <-. apply pl_emit; auto. eapply pl_pool; eauto.
    + intros X. refine (drop_pl _ _ t th r _ _ X); [apply pl_emit; auto|exact E].
  - destruct (is_open s c); auto. unfold dispatch. destruct (find _ (s_srcs s)) as [y|] eqn:Fd; auto. destruct (c_owner y) as [p|]; [|intros X; injection X as <-; apply pl_emit; auto]. destruct (c_stat y); auto. set (s1 := emit _ _).
    assert (A1 : PL s1) by (apply pl_emit; [|cbn; auto]; apply pl_srcs; auto; apply mark_sub). destruct (the_pool s1 p) as [q|] eqn:Q0; [|discriminate]. cbn [bind]. assert (Q : nth_error (s_pools s1) p = Some (Some q)) by (unfold the_pool in Q0; destruct (nth_error (s_pools s1) p) as [[]|]; congruence). intros X. injection X as <-. rewrite (push_eq _ _ th) by exact E.
    match goal with |- PL (set_threads ?s0 _) => apply (pl_thread s0 t th) end; auto; [|intros f [<-|F]; auto; right; destruct (Nat.eqb _ _); exact Logic.I]. eapply pl_pool; eauto. right. cbn [p_idle]. destruct (zero_mine s p I) as (M1 & M2). split; [exact M1|]. intros y' Y' P'. destruct (mark_sub _ _ _ _ _ Y') as (z & Z & P1 & <-). apply M2; auto. congruence.
  - intros X. injection X as <-. destruct (is_open s c); auto. rewrite (on_thread_eq _ _ _ _ E). apply (pl_thread s t th); auto.
  - destruct (is_open s c); auto. unfold attach. destruct (nth_error (s_ctxs s) c) as [(id & [|])|] eqn:N; cbn [bind]; try discriminate. intros X. injection X as <-. exact (pl_source s c id None I A N).
  - intros X. injection X as <-. destruct (unused s c) eqn:U; auto. rewrite (push_eq _ _ th) by exact E. match goal with |- PL (set_threads ?s0 _) => apply (pl_thread s0 t th) end; auto; [|intros f [<-|F]; auto; right; exact Logic.I].
    assert (C0 : c <> 0%nat) by (unfold unused in U; destruct c; [discriminate|lia]). assert (N0 : next0 (set_ctxs s (upd (s_ctxs s) c (0%nat, false))) = next0 s) by (unfold next0; flat; rewrite upd_other by auto; auto). constructor; try apply A.
    + intros p q Q. eapply mine_sub; [apply (l_idle _ A); eauto|exact N0|intros y Y; exists y; auto].
    + intros u thu f Eu Fi. eapply frame_mine_sub; [eapply (l_frame _ A); eauto|exact N0|intros y Y; exists y; auto].
Qed.
Lemma drain_end_pl s s' t th f k p w : PL s -> nth_error (s_threads s) t = Some th -> t_stack th = f :: k -> drain_end s t p w = Ok s' -> PL s'.
Proof.
  intros A E St. unfold drain_end. rewrite (pop_eq _ _ _ _ _ E St). assert (A1 : PL (emit (set_threads s (upd (s_threads s) t (with_stack th k))) (EDrained t p w))). { apply pl_emit; [|cbn; auto]. apply (pl_thread s t th); auto; [apply (l_ctx _ A _ _ E)|]. intros g G. left. rewrite St. cbn. auto. }
  destruct w as [|c id|].
  - intros X. injection X as <-. exact A1.
  - unfold idle_end. intros X. refine (drop_pl _ _ t _ p _ _ X); [|flat; apply (upd_same _ _ _ E)]. apply pl_emit; [|cbn; auto]. apply pl_srcs; auto. apply without_sub.
  - flat. destruct (nth_error (s_pools s) p) as [[q|]|]; try discriminate. intros X. injection X as <-. apply pl_emit; [|cbn; auto]. apply (pl_gone _ p) in A1. exact A1.
Qed.
Lemma step_pl s s' x : Inv None s -> plain s x -> PL s -> step s x = Ok s' -> PL s'.
Proof.
  intros I Pl A. destruct x as (t & a). unfold step. assert (Same : Ok s = Ok s' -> PL s') by (intros X; injection X as <-; auto). destruct (nth_error (s_threads s) t) as [th|] eqn:E; auto. pose proof (l_ctx _ A _ _ E) as Cx.
  assert (Sw : forall s1 f k g, PL s1 -> s_threads s1 = s_threads s -> t_stack th = f :: k -> frame_mine s1 g -> PL (swap s1 t g)).
  { intros s1 f k g A1 T1 St G. rewrite (swap_eq _ t th f k); [|rewrite T1; exact E|exact St]. apply (pl_thread s1 t th); auto; [rewrite T1; auto|]. intros h [<-|H]; auto. left. rewrite St. cbn. auto. }
  destruct (t_stack th) as [|f k] eqn:St.
  - destruct (t_life th) eqn:L; auto.
    + destruct a; auto. destruct (existsb _ (s_threads s)); auto. intros X. injection X as <-. rewrite (on_thread_eq _ _ _ _ E). apply pl_emit; auto. apply (pl_thread s t th); auto.
    + destruct a as [| |c| |c id|c|c|c|b n]; try (intros; eapply client_pl; eauto; fail). intros X. injection X as <-. rewrite (on_thread_eq _ _ _ _ E). apply pl_emit; auto.
      rewrite (push_eq _ _ (with_ctx (with_life th Exiting) (if b then 0 else t_ctx th)%nat)) by apply (upd_same _ _ _ E). flat. rewrite upd_twice. apply (pl_thread s t th); auto; [cbn; destruct b; auto|]. intros g [<-|G]; [right; exact Logic.I|left; exact G].
  - destruct f as [p w|p l w|p l w|p id w|p w|p c id|n|c].
    + destruct a; auto. unfold loop. destruct (the_pool s p) as [q|] eqn:Q0; [|discriminate]. cbn [bind]. assert (Q : nth_error (s_pools s) p = Some (Some q)) by (unfold the_pool in Q0; destruct (nth_error (s_pools s) p) as [[]|]; congruence). destruct (p_items q) as [|i l].
      * destruct (Nat.eqb (p_idle q) 0); [intros; eapply drain_end_pl; eauto|]. intros X. injection X as <-. eapply Sw; [eapply pl_pool; eauto; right; apply zero_mine; auto|reflexivity|reflexivity|]. apply (l_idle _ A _ _ Q).
      * intros X. injection X as <-. eapply Sw; [apply pl_emit; [|cbn; auto]; eapply pl_pool; eauto|reflexivity|reflexivity|exact Logic.I].
    + destruct a; auto. unfold batch. destruct l as [|(i & d) l]; intros X; injection X as <-; (eapply Sw; [|reflexivity|reflexivity|exact Logic.I]); auto. apply pl_emit; auto.
    + destruct a as [| |c| |c id|c|c|c|b n]; try (intros; eapply client_pl; eauto; fail). intros X. injection X as <-. eapply Sw; [apply pl_emit; auto|reflexivity|reflexivity|exact Logic.I].
    + destruct a; auto. unfold remove. assert (A1 : PL (swap s t (FRemoved p w))) by (eapply Sw; [exact A|reflexivity|reflexivity|exact Logic.I]). assert (Fi : In (FRemove p id w) (t_stack th)) by (rewrite St; cbn; auto). destruct (l_frame _ A _ _ _ E Fi) as (_ & M).
      rewrite (swap_eq _ t th (FRemove p id w) k) in *; [|exact E|exact St|exact E|exact St]. flat. pose proof (upd_same _ _ _ E (with_stack th (FRemoved p w :: k))) as Eq. destruct (find _ (s_srcs s)) as [y|] eqn:Fd; [|intros X; injection X as <-; apply pl_emit; auto].
      apply found in Fd. destruct Fd as (Y & P & _). rewrite (M y Y P). apply (pl_emit _ (EUnsource t p id 0 (Some p))) in A1; [|cbn; auto].
      destruct (c_stat y); intros X; [|injection X as <-; pose proof (pl_srcs _ _ A1 (mark_sub (s_srcs s) 0 id SGone)) as Z; exact Z..]. refine (drop_pl _ _ t _ p _ _ X); [|exact Eq]. pose proof (pl_srcs _ _ A1 (without_sub (s_srcs s) 0 id)) as Z. exact Z.
    + destruct a; auto. intros; eapply drain_end_pl; eauto.
    + destruct a; auto. unfold idle_end. rewrite (pop_eq _ _ _ _ _ E St). intros X. refine (drop_pl _ _ t _ p _ _ X); [|flat; apply (upd_same _ _ _ E)]. apply pl_emit; [|cbn; auto]. apply pl_srcs; [|apply without_sub]. apply (pl_thread s t th); auto. intros g G. left. rewrite St. cbn. auto.
    + destruct a; auto. assert (End : PL (emit (on_thread (pop s t) t (fun th => with_ctx (with_life th Dead) 0)) (EDead t))).
      { rewrite (pop_eq _ _ _ _ _ E St), (on_thread_eq _ _ (with_stack th k)) by apply (upd_same _ _ _ E). flat. rewrite upd_twice. apply pl_emit; [|cbn; auto]. apply (pl_thread s t th); auto. intros g G. left. rewrite St. cbn in *. auto. }
      unfold exit_step. destruct (t_slot th) as [p|]; [|intros X; injection X as <-; exact End]. destruct n as [|n]; [intros X; injection X as <-; exact End|].
      rewrite (on_thread_eq _ _ _ _ E). rewrite (swap_eq (set_threads s (upd (s_threads s) t (with_slot th None))) t (with_slot th None) (FExit (S n)) k (FExit n)); [|apply (upd_same _ _ _ E)|exact St]. flat. rewrite upd_twice. intros X. refine (drop_pl _ _ t _ p _ _ X); [|flat; apply (upd_same _ _ _ E)].
      apply (pl_thread s t th); auto. intros g [<-|G]; [right; exact Logic.I|]. left. rewrite St. cbn. auto.
    + destruct a; auto. unfold close_step. destruct (find _ (s_srcs s)) as [y|] eqn:Fd; [|intros X; injection X as <-; rewrite (pop_eq _ _ _ _ _ E St); apply (pl_thread s t th); auto; intros g G; left; rewrite St; cbn; auto].
      assert (W : PL (emit (set_srcs s (without (s_srcs s) c (c_id y))) (EClosed c (c_id y) (c_owner y)))) by (apply pl_emit; [|cbn; auto]; apply pl_srcs; auto; apply without_sub).
      destruct (c_owner y) as [o|]; intros X; [|injection X as <-; exact W]. refine (drop_pl _ _ t _ o _ _ X); [exact W|exact E].
Qed.
Lemma start_sc selfs n : SC (start selfs n).
Proof. intros p c id. cbn. tauto. Qed.
Lemma start_pl selfs n : PL (start selfs n).
Proof.
  constructor; try (cbn; auto; contradiction).
  - intros t th H. apply nth_error_In in H. cbn in H. apply in_map_iff in H. destruct H as (a & <- & _). auto.
  - intros [|p] q; discriminate.
  - intros t th f H Fi. apply nth_error_In in H. cbn in H. apply in_map_iff in H. destruct H as (a & <- & _). destruct Fi.
Qed.
Lemma run_sc l : forall s s', Inv None s -> all_along fair s l -> SC s -> run s l = Ok s' -> SC s'.
Proof.
  induction l as [|a l IH]; intros s s' I F A; cbn [run]; [intros X; injection X as <-; exact A|]. destruct F as (F & Fl). destruct (step_ok s a I F) as (s1 & E & I1). rewrite E in *. cbn [bind]. apply IH; auto. exact (step_sc _ _ _ I A E).
Qed.
Lemma run_pl l : forall s s', Inv None s -> all_along fair s l -> all_along plain s l -> PL s -> run s l = Ok s' -> PL s'.
Proof.
  induction l as [|a l IH]; intros s s' I F P A; cbn [run]; [congruence|]. destruct F as (F & Fl). destruct P as (P & Pl). destruct (step_ok s a I F) as (s1 & E & I1). rewrite E in *. cbn [bind]. apply IH; auto. exact (step_pl _ _ _ I P A E).
Qed.
