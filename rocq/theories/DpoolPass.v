(* Each call of a source on the thread of its pool destroys the items which are waiting then *)
From Verif Require Import Base DpoolModel DpoolSpec DpoolProofs DpoolTrace DpoolSource DpoolOwn.

Definition ok_pass (e : event) (pre : list event) : Prop :=
  match e with
  | EIdleEnd _ c id p => forall mid old u, pre = mid ++ EIdle u c id p :: old -> (forall v, ~ In (EIdle v c id p) mid) -> forall i, In i (waiting p old) -> destroyed i pre
  | _ => True
  end.
Fixpoint goodp (tr : list event) : Prop := match tr with [] => True | e :: pre => ok_pass e pre /\ goodp pre end.
Lemma goodp_at post e pre : goodp (post ++ e :: pre) -> ok_pass e pre /\ goodp pre.
Proof. induction post as [|x post IH]; cbn; tauto. Qed.
Definition is_loop (f : frame) : bool := match f with FLoop _ _ => true | _ => false end.
Definition pf (tr : list event) (f : frame) : Prop := forall p c id mid old u, fcaller f = Some (p, WIdle c id) -> tr = mid ++ EIdle u c id p :: old -> (forall v, ~ In (EIdle v c id p) mid) ->
  forall i, In i (waiting p old) -> destroyed i tr \/ In i (map fst (flist f)) \/ (is_loop f = true /\ In i (waiting p tr)).
Definition PF (s : state) : Prop := goodp (s_trace s) /\ forall t th f, nth_error (s_threads s) t = Some th -> In f (t_stack th) -> pf (s_trace s) f.

Lemma destroyed_more e tr i : destroyed i tr -> destroyed i (e :: tr).
Proof. intros (t & p & d & H). exists t, p, d. cbn. auto. Qed.
Definition pdull (e : event) : bool := match e with EIdle _ _ _ _ | EBatch _ _ => false | _ => true end.
Lemma waiting_more e tr p i : pdull e = true -> In i (waiting p tr) -> In i (waiting p (e :: tr)).
Proof. destruct e; try discriminate; cbn; auto. intros _ H. destruct (Nat.eqb _ _); auto. apply in_app_iff. auto. Qed.
Lemma pf_more e tr f : pf tr f -> pdull e = true -> pf (e :: tr) f.
Proof.
  intros H D p c id mid old u Fc Tr N i Hi. destruct mid as [|x mid]; [injection Tr as -> _; discriminate|]. injection Tr as <- Tr. destruct (H p c id mid old u Fc Tr) with (i := i) as [X|[X|(X & Y)]]; auto.
  - intros v Hv. apply (N v). cbn. auto.
  - left. apply destroyed_more; auto.
  - right. right. split; auto. apply waiting_more; auto.
Qed.
Lemma pf_emit s e : PF s -> pdull e = true -> ok_pass e (s_trace s) -> PF (emit s e).
Proof. intros (G & H) D O. split; [split; auto|]. intros t th f E Fi. apply pf_more; auto. eapply H; eauto. Qed.
Lemma pf_thread s t th th' : PF s -> nth_error (s_threads s) t = Some th -> (forall f, In f (t_stack th') -> In f (t_stack th) \/ pf (s_trace s) f) -> PF (set_threads s (upd (s_threads s) t th')).
Proof.
  intros (G & H) E F. split; auto. flat. intros u thu f Eu Fi. destruct (Nat.eq_dec t u) as [<-|Ne]; [rewrite (upd_same _ _ _ E) in Eu; injection Eu as <-; destruct (F f Fi); auto; eapply H; eauto|rewrite upd_other in Eu by auto; eapply H; eauto].
Qed.
Lemma pf_none tr f : (forall p c id, fcaller f <> Some (p, WIdle c id)) -> pf tr f.
Proof. intros N p c id mid old u Fc. destruct (N _ _ _ Fc). Qed.
Lemma pf_same tr f g : pf tr f -> fcaller g = fcaller f -> (forall i, In i (map fst (flist f)) -> In i (map fst (flist g))) -> (is_loop f = true -> is_loop g = true) -> pf tr g.
Proof. intros H Fc L Lp p c id mid old u X Tr N i Hi. rewrite Fc in X. destruct (H p c id mid old u X Tr N i Hi) as [Y|[Y|(Y & Z)]]; auto. Qed.
Lemma drop_pf s s' t th p : PF s -> nth_error (s_threads s) t = Some th -> drop s t p = Ok s' -> PF s'.
Proof.
  intros A E D. destruct (drop_shape _ _ _ _ _ E D) as (q & Q & [(_ & ->)|(_ & ->)]); [exact A|]. apply (pf_emit _ (EZero p)) in A; [|reflexivity|exact Logic.I].
  refine (pf_thread (emit s (EZero p)) t th _ A E _). intros f [<-|F]; auto. right. apply pf_none. discriminate.
Qed.
Lemma default_pf s t th s' p : PF s -> nth_error (s_threads s) t = Some th -> get_default s t th = (s', p) -> PF s'.
Proof.
  intros A E. unfold get_default. destruct (t_slot th) as [p0|]; intros X; injection X as <- <-; [apply pf_emit; auto; exact Logic.I|]. rewrite (on_thread_eq _ _ th) by exact E. apply pf_emit; [|reflexivity|exact Logic.I].
  apply (pf_emit _ (ENew t (length (s_pools s)))) in A; [|reflexivity|exact Logic.I]. refine (pf_thread (emit s (ENew t (length (s_pools s)))) t th _ A E _). auto.
Qed.
Lemma client_pf s s' t th a : Inv None s -> OB s' -> PF s -> nth_error (s_threads s) t = Some th -> client s t th a = Ok s' -> PF s'.
Proof.
  intros I B' A E. assert (Same : Ok s = Ok s' -> PF s') by (intros X; injection X as <-; auto). destruct a as [| |c| |c id|c|c|c|b n]; cbn [client]; auto.
  - unfold do_call. destruct (get_default s t th) as (s1 & p) eqn:D. pose proof (default_pf _ _ _ _ _ A E D) as A1. destruct (default_ok _ _ _ _ _ I E D) as (_ & E1 & _ & _ & _). destruct c as [|d| | |r].
    + intros X. injection X as <-. exact A1.
    + unfold add. rewrite D. destruct (the_pool _ p) as [q|]; [|discriminate]. cbn [bind]. apply (pf_emit _ (EAdd t p (s_items s1) d)) in A1; [|reflexivity|exact Logic.I]. destruct (Nat.eqb _ _); [|intros X; injection X as <-; exact A1].
      unfold attach. destruct (nth_error (s_ctxs _) _) as [(id & [|])|]; cbn [bind]; try discriminate. intros X. injection X as <-. apply (pf_emit _ (ESource (t_ctx th) id (Some p))) in A1; [exact A1|reflexivity|exact Logic.I].
    + intros X. injection X as <-. rewrite (push_eq _ _ (with_slot th (Some p))) by exact E1. apply (pf_emit _ (EDrain t p)) in A1; [|reflexivity|exact Logic.I]. refine (pf_thread (emit s1 (EDrain t p)) t _ _ A1 E1 _). intros f [<-|F]; auto. right. apply pf_none. discriminate.
    + destruct (the_pool s1 p) as [q|]; [|discriminate]. cbn [bind]. intros X. injection X as <-. apply (pf_emit _ (ERef p)) in A1; [exact A1|reflexivity|exact Logic.I].
    + intros X. refine (drop_pf (emit s (EUnref r)) _ t th r _ E X). apply pf_emit; auto. exact Logic.I.
  - destruct (is_open s c); auto. unfold dispatch. destruct (find _ (s_srcs s)) as [y|] eqn:Fd; auto. apply found1 in Fd. destruct Fd as (Y & Py). destruct (c_owner y) as [p|] eqn:Oy; [|intros X; injection X as <-; apply pf_emit; auto; exact Logic.I]. destruct (c_stat y) eqn:Sy; auto.
    destruct (the_pool _ p) as [q|]; [|discriminate]. cbn [bind]. intros X. injection X as <-. rewrite (push_eq _ _ th) in * by exact E. destruct A as (G & H). split; [split; [exact Logic.I|exact G]|]. flat. intros u thu f Eu Fi.
    (* nobody was in a call of this source *)
    assert (Old : forall thv g, nth_error (s_threads s) u = Some thv -> In g (t_stack thv) -> pf (EIdle t c id p :: s_trace s) g).
    { intros thv g Ev Gi r c' id' mid old v Fc Tr N i Hi. destruct (i_run _ _ I _ _ _ _ _ _ Ev Gi Fc) as (st & Ns & Z). assert (Nc : (c', id') <> (c, id)). { intros X. assert (Src c' id' (Some r) st = y) by (eapply pair_inj; [apply (i_ids _ _ I)|auto|auto|rewrite Py; exact X]). subst y. cbn in Sy. congruence. }
      destruct mid as [|x mid]; [injection Tr as -> -> -> -> _; congruence|]. injection Tr as <- Tr. destruct (H u thv g Ev Gi r c' id' mid old v Fc Tr) with (i := i) as [X|[X|(X & X')]]; auto; [intros v' Hv; apply (N v'); cbn; auto|left; apply destroyed_more; auto]. }
    cbn in Eu. destruct (Nat.eq_dec t u) as [<-|Ne]; [|rewrite upd_other in Eu by auto; eapply Old; eauto]. rewrite (upd_same _ _ _ E) in Eu. injection Eu as <-. destruct Fi as [<-|Fi]; [|eapply Old; eauto].
    destruct (Nat.eqb (p_thread q) (t_self th)).
    + intros r c' id' mid old v Fc Tr N i Hi. injection Fc as <- <- <-. right. right. split; auto. destruct mid as [|x mid]; [injection Tr as _ ->; exact Hi|]. injection Tr as <- _. destruct (N t). cbn. auto.
    + exfalso. refine (b_other _ B' t _ p c id (upd_same _ _ _ E _) _). cbn. auto.
  - intros X. injection X as <-. destruct (is_open s c); auto. rewrite (on_thread_eq _ _ _ _ E). apply (pf_thread s t th); auto.
  - destruct (is_open s c); auto. unfold attach. destruct (nth_error (s_ctxs s) c) as [(id & [|])|]; cbn [bind]; try discriminate. intros X. injection X as <-. apply (pf_emit _ (ESource c id None)) in A; [exact A|reflexivity|exact Logic.I].
  - intros X. injection X as <-. destruct (unused s c); auto. rewrite (push_eq _ _ th) by exact E. refine (pf_thread (set_ctxs s _) t th _ A E _). intros f [<-|F]; auto. right. apply pf_none. discriminate.
Qed.
Lemma pf_swap s t th f k g : PF s -> nth_error (s_threads s) t = Some th -> t_stack th = f :: k -> pf (s_trace s) g -> PF (set_threads s (upd (s_threads s) t (with_stack th (g :: k)))).
Proof. intros A E St G. apply (pf_thread s t th); auto. intros h [<-|H]; auto. left. rewrite St. cbn. auto. Qed.
Lemma pf_pop s t th f k : PF s -> nth_error (s_threads s) t = Some th -> t_stack th = f :: k -> PF (set_threads s (upd (s_threads s) t (with_stack th k))).
Proof. intros A E St. apply (pf_thread s t th); auto. intros h H. left. rewrite St. cbn. auto. Qed.
Lemma idle_end_pf s s' t th p c id : PF s -> nth_error (s_threads s) t = Some th -> ok_pass (EIdleEnd t c id p) (s_trace s) -> idle_end s t p c id = Ok s' -> PF s'.
Proof.
  intros A E H. unfold idle_end. intros X. refine (drop_pf _ _ t th p _ _ X); [|exact E]. apply (pf_emit _ (EIdleEnd t c id p)) in A; [exact A|reflexivity|exact H].
Qed.
Lemma drain_end_pf s s' t th f k p w : PF s -> nth_error (s_threads s) t = Some th -> t_stack th = f :: k -> fcaller f = Some (p, w) -> flist f = [] -> (is_loop f = true -> waiting p (s_trace s) = []) -> drain_end s t p w = Ok s' -> PF s'.
Proof.
  intros A E St Fc Fl Lp. unfold drain_end. rewrite (pop_eq _ _ _ _ _ E St). pose proof (pf_pop _ _ _ _ _ A E St) as A1. apply (pf_emit _ (EDrained t p w)) in A1; [|reflexivity|exact Logic.I]. destruct w as [|c id|].
  - intros X. injection X as <-. exact A1.
  - refine (idle_end_pf _ _ t _ p c id A1 (upd_same _ _ _ E _) _). intros mid old u Tr N i Hi. cbn in Tr. destruct mid as [|x mid]; [discriminate|]. injection Tr as <- Tr. apply destroyed_more. destruct A as (_ & H).
    destruct (H t th f E) with (p := p) (c := c) (id := id) (mid := mid) (old := old) (u := u) (i := i) as [X|[X|(X & Y)]]; auto; [rewrite St; cbn; auto|intros v Hv; apply (N v); cbn; auto|rewrite Fl in X; destruct X|rewrite (Lp X) in Y; destruct Y].
  - flat. destruct (nth_error (s_pools s) p) as [[q|]|]; try discriminate. intros X. injection X as <-. apply (pf_emit _ (EGone p)) in A1; [exact A1|reflexivity|exact Logic.I].
Qed.
Lemma final_no_idle s t th f k p u thu g c id : Inv None s -> nth_error (s_threads s) t = Some th -> t_stack th = f :: k -> fcaller f = Some (p, WFinal) -> nth_error (s_threads s) u = Some thu -> In g (t_stack thu) -> fcaller g = Some (p, WIdle c id) -> False.
Proof.
  intros I E St Fc Eu Gi Gc. destruct (i_run _ _ I _ _ _ _ _ _ Eu Gi Gc) as (st & _ & Y). destruct (src_live _ _ _ p I Y eq_refl) as (q & Q & R). destruct (frame_live s t th f p WFinal I E ltac:(rewrite St; cbn; auto) Fc) as (q' & Q' & Z). rewrite Q in Q'. injection Q' as <-. pose proof (proj1 Z eq_refl). lia.
Qed.
Lemma step_pf s s' x : Inv None s -> JK s -> OB s -> OB s' -> PF s -> step s x = Ok s' -> PF s'.
Proof.
  intros I (Jv & Kv) B B' A. destruct x as (t & a). unfold step. assert (Same : Ok s = Ok s' -> PF s') by (intros X; injection X as <-; auto). destruct (nth_error (s_threads s) t) as [th|] eqn:E; auto. destruct (i_shape _ _ I _ _ E) as (S1 & S2). destruct (t_stack th) as [|f k] eqn:St.
  - destruct (t_life th) eqn:L; auto.
    + destruct a; auto. destruct (existsb _ (s_threads s)); auto. intros X. injection X as <-. rewrite (on_thread_eq _ _ _ _ E). apply pf_emit; [|reflexivity|exact Logic.I]. apply (pf_thread s t th); auto.
    + destruct a as [| |c| |c id|c|c|c|b n]; try (intros; eapply client_pf; eauto; fail). intros X. injection X as <-. rewrite (on_thread_eq _ _ _ _ E). apply pf_emit; [|reflexivity|exact Logic.I].
      rewrite (push_eq _ _ (with_ctx (with_life th Exiting) (if b then 0 else t_ctx th)%nat)) by apply (upd_same _ _ _ E). flat. rewrite upd_twice. cbn [t_stack with_ctx with_life]. rewrite St.
      apply (pf_thread s t th); auto. intros f [<-|[]]. right. apply pf_none. discriminate.
  - pose proof (proj2 A t th f E ltac:(rewrite St; cbn; auto)) as Af. destruct f as [p w|p l w|p l w|p id w|p w|p c id|n|c].
    + destruct a; auto. unfold loop. destruct (the_pool s p) as [q|] eqn:Q; [|discriminate]. cbn [bind]. unfold the_pool in Q. destruct (nth_error (s_pools s) p) as [[q0|]|] eqn:Q0; try discriminate. injection Q as ->.
      pose proof (k_wait _ _ _ _ Kv p) as Wt. unfold items in Wt. rewrite nth_error_map, Q0 in Wt. cbn in Wt. destruct (p_items q) as [|i l] eqn:Iq.
      * destruct (Nat.eqb_spec (p_idle q) 0); [eapply drain_end_pf; eauto|]. intros X. injection X as <-. rewrite (swap_eq _ t th (FLoop p w) k); [|exact E|exact St]. refine (pf_swap (set_pool _ _ _) t th _ k _ A E St _). intros r c id mid old u Fc Tr N j Hj. cbn in Fc. flat.
        destruct (Af r c id mid old u Fc Tr N j Hj) as [X|[X|(X & Y)]]; auto. injection Fc as <- _. rewrite Wt in Y. destruct Y.
      * intros X. injection X as <-. rewrite (swap_eq _ t th (FLoop p w) k); [|exact E|exact St]. 
        destruct A as (G & H). split; [split; [exact Logic.I|exact G]|]. flat. intros u thu g Eu Gi r c id mid old v Fc Tr N j Hj. destruct mid as [|x mid]; [discriminate|]. injection Tr as <- Tr. assert (N' : forall v', ~ In (EIdle v' c id r) mid) by (intros v' Hv; apply (N v'); cbn; auto).
        assert (Old : forall thv, nth_error (s_threads s) u = Some thv -> In g (t_stack thv) -> (t = u -> In g k) -> destroyed j (EBatch t p :: s_trace s) \/ In j (map fst (flist g)) \/ (is_loop g = true /\ In j (waiting r (EBatch t p :: s_trace s)))).
        { clear thu Eu Gi. intros thu Eu Gi Ik. destruct (H u thu g Eu Gi r c id mid old v Fc Tr N' j Hj) as [X|[X|(X & Y)]]; auto; [left; apply destroyed_more; auto|]. cbn [waiting]. destruct (Nat.eqb_spec p r) as [<-|]; [|auto].
          destruct g as [p' w'|? ? ?|? ? ?|? ? ?|? ?|? ? ?|?|?]; try discriminate. injection Fc as -> ->. pose proof (b_frame _ B u thu _ p _ Eu Gi eq_refl ltac:(discriminate)) as Nu.
          assert (Wf : w <> WFinal) by (intros ->; eapply (final_no_idle s t th _ k p u thu _ c id I E St eq_refl Eu Gi); reflexivity). pose proof (b_frame _ B t th (FLoop p w) p w E ltac:(rewrite St; cbn; auto) eq_refl Wf) as Nt. assert (t = u) by (eapply good_new; eauto; apply Jv).
          pose proof (b_low _ B t th _ k E St _ (Ik H0)) as Lo. discriminate. }
        destruct (Nat.eq_dec t u) as [<-|Ne]; [|rewrite upd_other in Eu by auto; apply (Old thu); auto; congruence]. rewrite (upd_same _ _ _ E) in Eu. injection Eu as <-. destruct Gi as [<-|Gi]; [|apply (Old th); auto; rewrite St; cbn; auto].
        destruct (Af r c id mid old v Fc Tr N' j Hj) as [X|[X|(X & Y)]]; auto; [left; apply destroyed_more; auto|destruct X|]. injection Fc as <- _. rewrite Wt in Y. auto.
    + destruct a; auto. unfold batch. destruct l as [|(i & d) l]; intros X; injection X as <-.
      * rewrite (swap_eq _ t th (FBatch p [] w) k); [|exact E|exact St]. refine (pf_swap s t th _ k _ A E St _). apply (pf_same _ _ (FLoop p w) Af); auto.
      * rewrite (swap_eq _ t th (FBatch p ((i, d) :: l) w) k); [|exact E|exact St]. apply (pf_emit _ (EDestroy t p i d)) in A; [|reflexivity|exact Logic.I]. refine (pf_swap (emit s _) t th _ k _ A E St _).
        apply (pf_more (EDestroy t p i d)) in Af; [|reflexivity]. intros r c id mid old u Fc Tr N j Hj. destruct (Af r c id mid old u Fc Tr N j Hj) as [X|[[X|X]|(X & _)]]; auto; [|discriminate]. left. cbn in X. subst j. exists t, p, d. cbn. auto.
    + destruct a as [| |c| |c id|c|c|c|b n]; try (intros; eapply client_pf; eauto; fail). intros X. injection X as <-. rewrite (swap_eq _ t th (FCb p l w) k); [|exact E|exact St]. apply (pf_emit _ (EReturn t)) in A; [|reflexivity|exact Logic.I]. refine (pf_swap (emit s _) t th _ k _ A E St _).
      apply (pf_more (EReturn t)) in Af; [|reflexivity]. apply (pf_same _ _ (FBatch p l w) Af); auto.
    + destruct a; auto. unfold remove. rewrite (swap_eq _ t th (FRemove p id w) k); [|exact E|exact St]. flat. set (th' := with_stack th (FRemoved p w :: k)). pose proof (upd_same _ _ _ E th') as Eq.
      assert (B1 : PF (set_threads s (upd (s_threads s) t th'))) by (refine (pf_swap s t th _ k _ A E St _); apply (pf_same _ _ (FRemoved p w) Af); auto). destruct (find _ (s_srcs s)) as [y|]; [|intros X; injection X as <-; apply pf_emit; auto; exact Logic.I].
      apply (pf_emit _ (EUnsource t p id 0 (c_owner y))) in B1; [|reflexivity|exact Logic.I].
      destruct (c_owner y) as [o|]; [destruct (c_stat y)|]; intros X; try (injection X as <-; exact B1). refine (drop_pf _ _ t th' o _ _ X); [exact B1|exact Eq].
    + destruct a; auto. eapply drain_end_pf; eauto. discriminate.
    + destruct (b_other _ B t th p c id E). rewrite St. cbn. auto.
    + destruct a; auto. cbn in S1. subst k.
      assert (End : PF (emit (on_thread (pop s t) t (fun th => with_ctx (with_life th Dead) 0)) (EDead t))).
      { rewrite (pop_eq _ _ _ _ _ E St), (on_thread_eq _ _ (with_stack th [])) by apply (upd_same _ _ _ E). flat. rewrite upd_twice. apply pf_emit; [|reflexivity|exact Logic.I]. apply (pf_thread s t th); auto. intros f []. }
      unfold exit_step. destruct (t_slot th) as [p|]; [|intros X; injection X as <-; exact End]. destruct n as [|n]; [intros X; injection X as <-; exact End|].
      rewrite (on_thread_eq _ _ _ _ E). rewrite (swap_eq (set_threads s (upd (s_threads s) t (with_slot th None))) t (with_slot th None) (FExit (S n)) [] (FExit n)); [|apply (upd_same _ _ _ E)|exact St]. flat. rewrite upd_twice. intros X. refine (drop_pf _ _ t _ p _ _ X); [|flat; apply (upd_same _ _ _ E)].
      apply (pf_thread s t th); auto; cbn. intros f [<-|[]]. right. apply pf_none. discriminate.
    + destruct a; auto. unfold close_step. destruct (find _ (s_srcs s)) as [y|]; [|intros X; injection X as <-; rewrite (pop_eq _ _ _ _ _ E St); eapply pf_pop; eauto].
      apply (pf_emit _ (EClosed c (c_id y) (c_owner y))) in A; [|reflexivity|exact Logic.I]. destruct (c_owner y) as [o|]; intros X; [|injection X as <-; exact A]. refine (drop_pf _ _ t th o _ _ X); [exact A|exact E].
Qed.
Lemma start_pf selfs n : PF (start selfs n).
Proof. split; [exact Logic.I|]. intros t th f E H. apply nth_error_In in E. cbn in E. apply in_map_iff in E. destruct E as (a & <- & _). destruct H. Qed.
Lemma run_pf l : forall s s', Inv None s -> all_along fair s l -> all_along own s l -> JK s -> SC s -> OB s -> PF s -> run s l = Ok s' -> OB s' /\ PF s'.
Proof.
  induction l as [|a l IH]; intros s s' I F Ow K Sc B A; cbn [run]; [intros X; injection X as <-; auto|]. destruct F as (F & Fl). destruct Ow as (Ow & Owl). destruct (step_ok s a I F) as (s1 & E & I1). rewrite E in *. cbn [bind]. intros R.
  pose proof (step_ob _ _ _ I Ow K Sc B E) as B1. apply (IH s1 s'); auto; [exact (step_jk _ _ _ I F K E)|exact (step_sc _ _ _ I Sc E)|exact (step_pf _ _ _ I K B B1 A E)].
Qed.

(* ---------------- pools which do not exist any more ---------------- *)
Definition GN (s : state) : Prop := forall p, In (EGone p) (s_trace s) <-> nth_error (s_pools s) p = Some None.
Lemma gn_emit s e : GN s -> (forall p, e <> EGone p) -> GN (emit s e).
Proof. intros G N p. cbn. rewrite <- (G p). split; [intros [X|X]; auto; destruct (N p X)|auto]. Qed.
Lemma gn_ext s s' : GN s -> s_pools s' = s_pools s -> s_trace s' = s_trace s -> GN s'.
Proof. intros G P T p. rewrite P, T. apply G. Qed.
Lemma gn_on s t f : GN s -> GN (on_thread s t f).
Proof. intros G. unfold on_thread. destruct (nth_error (s_threads s) t); auto. Qed.
Lemma gn_push s t f : GN s -> GN (push s t f).
Proof. apply gn_on. Qed.
Lemma gn_pop s t : GN s -> GN (pop s t).
Proof. apply gn_on. Qed.
Lemma gn_swap s t f : GN s -> GN (swap s t f).
Proof. intros G. apply gn_push, gn_pop, G. Qed.
Lemma gn_set s p q x : GN s -> the_pool s p = Ok q -> GN (set_pool s p (Some x)).
Proof.
  unfold the_pool. intros G Q r. cbn. rewrite (G r). destruct (nth_error (s_pools s) p) as [[q0|]|] eqn:E; try discriminate. destruct (Nat.eq_dec p r) as [<-|Ne]; [rewrite (upd_same _ _ _ E), E; split; discriminate|rewrite upd_other by auto; tauto].
Qed.
Lemma gn_drop s s' t p : GN s -> drop s t p = Ok s' -> GN s'.
Proof.
  intros G. unfold drop. destruct (the_pool s p) as [q|] eqn:Q; [|discriminate]. cbn [bind]. destruct (_ =? 0); intros X; injection X as <-; [apply gn_push, gn_emit; [|discriminate]|]; eapply gn_set; eauto.
Qed.
Lemma gn_default s t th s' p : GN s -> get_default s t th = (s', p) -> GN s'.
Proof.
  intros G. unfold get_default. destruct (t_slot th) as [p0|]; intros X; injection X as <- <-; [apply gn_emit; [auto|discriminate]|]. apply gn_emit; [|discriminate]. apply gn_on, gn_emit; [|discriminate]. intros r. cbn. rewrite (G r).
  destruct (Nat.lt_trichotomy r (length (s_pools s))) as [L|[->|L]]; [rewrite nth_error_app1 by auto; tauto| |].
  - rewrite nth_error_app2, Nat.sub_diag by auto. rewrite (proj2 (nth_error_None _ _)) by auto. split; discriminate.
  - rewrite (proj2 (nth_error_None (s_pools s) r)) by lia. rewrite (proj2 (nth_error_None _ r)) by (rewrite app_length; cbn; lia). tauto.
Qed.
Lemma gn_attach s c o s' id : GN s -> attach s c o = Ok (s', id) -> GN s'.
Proof. intros G. unfold attach. destruct (nth_error (s_ctxs s) c) as [(n & [|])|]; try discriminate. intros X. injection X as <- <-. apply (gn_emit _ (ESource c n o)) in G; [exact G|discriminate]. Qed.
Lemma gn_drain_end s s' t p w : GN s -> drain_end s t p w = Ok s' -> GN s'.
Proof.
  intros G. unfold drain_end. apply (gn_pop _ t) in G. apply (gn_emit _ (EDrained t p w)) in G; [|discriminate]. set (s1 := emit _ _) in *. destruct w as [|c id|]; [intros X; injection X as <-; auto|unfold idle_end; intros X; eapply gn_drop; [|exact X]|].
  - apply gn_emit; [|discriminate]. exact G.
  - clearbody s1. destruct (nth_error (s_pools s1) p) as [[q|]|] eqn:E; try discriminate. intros X. injection X as <-. intros r. cbn. destruct (Nat.eq_dec p r) as [<-|Ne]; [rewrite (upd_same _ _ _ E); tauto|]. rewrite upd_other by auto. rewrite <- (G r). split; [intros [X|X]; [congruence|auto]|auto].
Qed.
Lemma gn_client s s' t th a : GN s -> client s t th a = Ok s' -> GN s'.
Proof.
  intros G. assert (Same : Ok s = Ok s' -> GN s') by (intros X; injection X as <-; auto). destruct a as [| |c| |c id|c|c|c|b n]; cbn [client]; auto.
  - unfold do_call, add. destruct (get_default s t th) as (s1 & p) eqn:D. pose proof (gn_default _ _ _ _ _ G D) as G1. destruct c as [|d| | |r].
    + intros X. injection X as <-. auto.
    + apply (gn_emit _ (EAdd t p (s_items s1) d)) in G1; [|discriminate]. change (GN (emit (set_items s1 (S (s_items s1))) (EAdd t p (s_items s1) d))) in G1. set (s2 := emit (set_items _ _) _) in *. destruct (the_pool s2 p) as [q|] eqn:Q; [|discriminate]. cbn [bind]. destruct (Nat.eqb _ _).
      * destruct (attach s2 (t_ctx th) (Some p)) as [(s3 & id)|] eqn:At; cbn [bind]; [|discriminate]. intros X. injection X as <-. eapply (gn_set s3 p q); [eapply gn_attach; eauto|]. rewrite <- Q. unfold attach in At. destruct (nth_error (s_ctxs s2) _) as [(k & [|])|]; try discriminate. injection At as <- _. reflexivity.
      * intros X. injection X as <-. eapply gn_set; eauto.
    + intros X. injection X as <-. apply gn_push, gn_emit; [auto|discriminate].
    + destruct (the_pool s1 p) as [q|] eqn:Q; [|discriminate]. cbn [bind]. intros X. injection X as <-. apply gn_emit; [|discriminate]. eapply gn_set; eauto.
    + intros X. eapply gn_drop; [|exact X]. apply gn_emit; [auto|discriminate].
  - destruct (is_open s c); auto. unfold dispatch. destruct (find _ _) as [y|]; auto. destruct (c_owner y) as [p|]; [|intros X; injection X as <-; apply gn_emit; [auto|discriminate]]. destruct (c_stat y); auto.
    apply (gn_emit _ (EIdle t c id p)) in G; [|discriminate]. change (GN (emit (set_srcs s (mark (s_srcs s) c id SRun)) (EIdle t c id p))) in G. destruct (the_pool _ p) as [q|] eqn:Q; [|discriminate]. cbn [bind]. intros X. injection X as <-. apply gn_push. eapply gn_set; eauto.
  - intros X. injection X as <-. destruct (is_open s c); auto. apply gn_on; auto.
  - destruct (is_open s c); auto. destruct (attach s c None) as [(s3 & id)|] eqn:At; cbn [bind]; [|discriminate]. intros X. injection X as <-. eapply gn_attach; eauto.
  - intros X. injection X as <-. destruct (unused s c); auto. apply gn_push. exact G.
Qed.
Lemma gn_step s s' x : GN s -> step s x = Ok s' -> GN s'.
Proof.
  intros G. destruct x as (t & a). unfold step. assert (Same : Ok s = Ok s' -> GN s') by (intros X; injection X as <-; auto). destruct (nth_error (s_threads s) t) as [th|]; auto. destruct (t_stack th) as [|f k].
  - destruct (t_life th); auto.
    + destruct a; auto. destruct (existsb _ _); auto. intros X. injection X as <-. apply gn_emit; [apply gn_on; auto|discriminate].
    + destruct a; try (apply gn_client; auto; fail). intros X. injection X as <-. apply gn_emit; [apply gn_push, gn_on; auto|discriminate].
  - destruct f as [p w|p l w|p l w|p id w|p w|p c id|n|c].
    + destruct a; auto. unfold loop. destruct (the_pool s p) as [q|] eqn:Q; [|discriminate]. cbn [bind]. destruct (p_items q) as [|i l]; [destruct (Nat.eqb _ _); [apply gn_drain_end; auto|]|]; intros X; injection X as <-.
      * apply gn_swap. eapply gn_set; eauto.
      * apply gn_swap. apply gn_emit; [|discriminate]. eapply gn_set; eauto.
    + destruct a; auto. unfold batch. destruct l as [|(i & d) l]; intros X; injection X as <-; apply gn_swap; auto. apply gn_emit; [auto|discriminate].
    + destruct a; try (apply gn_client; auto; fail). intros X. injection X as <-. apply gn_swap, gn_emit; [auto|discriminate].
    + destruct a; auto. unfold remove. apply (gn_swap _ t (FRemoved p w)) in G. set (s1 := swap _ _ _) in *. destruct (find _ _) as [y|]; [|intros X; injection X as <-; apply gn_emit; [auto|discriminate]]. apply (gn_emit _ (EUnsource t p id 0 (c_owner y))) in G; [|discriminate].
      destruct (c_owner y) as [o|]; [destruct (c_stat y)|]; intros X; try (injection X as <-; exact G). eapply gn_drop; [|exact X]. exact G.
    + destruct a; auto. apply gn_drain_end; auto.
    + destruct a; auto. unfold idle_end. intros X. eapply gn_drop; [|exact X]. apply gn_emit; [|discriminate]. apply (gn_pop _ t) in G. exact G.
    + destruct a; auto. assert (End : GN (emit (on_thread (pop s t) t (fun th => with_ctx (with_life th Dead) 0)) (EDead t))) by (apply gn_emit; [apply gn_on, gn_pop; auto|discriminate]).
      unfold exit_step. destruct (t_slot th); [destruct n|]; intros X; try (injection X as <-; exact End). eapply gn_drop; [|exact X]. apply gn_swap, gn_on; auto.
    + destruct a; auto. unfold close_step. destruct (find _ _) as [y|]; [|intros X; injection X as <-; apply gn_pop; auto]. apply (gn_emit _ (EClosed c (c_id y) (c_owner y))) in G; [|discriminate]. destruct (c_owner y); intros X; [|injection X as <-; exact G]. eapply gn_drop; [|exact X]. exact G.
Qed.
Lemma gn_run l : forall s s', GN s -> run s l = Ok s' -> GN s'.
Proof. induction l as [|a l IH]; intros s s' G; cbn [run]; [intros X; injection X as <-; auto|]. destruct (step s a) as [s1|] eqn:E; [|discriminate]. cbn [bind]. apply IH. eapply gn_step; eauto. Qed.
Lemma gn_start selfs n : GN (start selfs n).
Proof. intros p. cbn. destruct p; split; try tauto; discriminate. Qed.
