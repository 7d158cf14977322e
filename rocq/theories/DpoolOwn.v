(* Each source is called on the thread of its pool, and nobody removes sources of others: items which wait have a source *)
From Verif Require Import Base DpoolModel DpoolSpec DpoolProofs DpoolTrace DpoolSource.

Definition low (f : frame) : bool := match f with FCb _ _ _ | FRemoved _ _ | FExit _ | FClose _ => true | _ => false end.
Record OB (s : state) : Prop := mkOB {
  b_low : forall t th f k, nth_error (s_threads s) t = Some th -> t_stack th = f :: k -> forall g, In g k -> low g = true;
  b_frame : forall t th f p w, nth_error (s_threads s) t = Some th -> In f (t_stack th) -> fcaller f = Some (p, w) -> w <> WFinal -> In (ENew t p) (s_trace s);
  b_other : forall t th p c id, nth_error (s_threads s) t = Some th -> ~ In (FOther p c id) (t_stack th);
  b_open : forall p c id, In (Src c id (Some p) SIdle) (s_srcs s) -> is_open s c = true;
  b_close : forall t th c, nth_error (s_threads s) t = Some th -> In (FClose c) (t_stack th) -> is_open s c = false }.
Definition W (p : nat) (s : state) : Prop := forall t th q, nth_error (s_threads s) t = Some th -> t_slot th = Some p -> nth_error (s_pools s) p = Some (Some q) ->
  (p_idle q <> 0%nat -> exists c, In (Src c (p_idle q) (Some p) SIdle) (s_srcs s)) /\
  (p_items q <> [] -> p_idle q <> 0%nat \/ exists w k, t_stack th = FLoop p w :: k) /\
  (forall u thu id w, nth_error (s_threads s) u = Some thu -> In (FRemove p id w) (t_stack thu) -> p_idle q = 0%nat).
Definition O (s : state) : Prop := OB s /\ forall p, W p s.

(* ---------------- one thread, one pool ---------------- *)
Definition top_loop (p : nat) (th : thread) : Prop := exists w k, t_stack th = FLoop p w :: k.
Lemma w_keep p s s' : W p s ->
  (forall q', nth_error (s_pools s') p = Some (Some q') -> exists q, nth_error (s_pools s) p = Some (Some q) /\ p_idle q' = p_idle q /\ p_items q' = p_items q) ->
  (forall t th', nth_error (s_threads s') t = Some th' -> exists th, nth_error (s_threads s) t = Some th /\ (t_slot th' = Some p -> t_slot th = Some p) /\
     (forall q, nth_error (s_pools s) p = Some (Some q) -> p_items q <> [] -> top_loop p th -> top_loop p th') /\ (forall id w, In (FRemove p id w) (t_stack th') -> In (FRemove p id w) (t_stack th))) ->
  (forall c id, In (Src c id (Some p) SIdle) (s_srcs s) -> In (Src c id (Some p) SIdle) (s_srcs s')) -> W p s'.
Proof.
  intros H P T S t th' q' E Sl Q'. destruct (P q' Q') as (q & Q & I1 & I2). destruct (T t th' E) as (th & E0 & Sl0 & L0 & _). destruct (H t th q E0 (Sl0 Sl) Q) as (A & B & C). rewrite I1, I2. split; [|split].
  - intros N. destruct (A N) as (c & X). eauto.
  - intros N. destruct (B N) as [X|X]; auto. right. apply (L0 q Q N X).
  - intros u thu id w Eu Fi. destruct (T u thu Eu) as (thu0 & Eu0 & _ & _ & F0). eapply C; eauto.
Qed.
(* the same with one thread changed *)
Lemma w_thread p s s' t th th' : W p s -> nth_error (s_threads s) t = Some th -> s_threads s' = upd (s_threads s) t th' ->
  (forall q', nth_error (s_pools s') p = Some (Some q') -> exists q, nth_error (s_pools s) p = Some (Some q) /\ p_idle q' = p_idle q /\ p_items q' = p_items q) ->
  (t_slot th' = Some p -> t_slot th = Some p) -> (forall q, nth_error (s_pools s) p = Some (Some q) -> p_items q <> [] -> top_loop p th -> top_loop p th') ->
  (forall id w, In (FRemove p id w) (t_stack th') -> In (FRemove p id w) (t_stack th)) ->
  (forall c id, In (Src c id (Some p) SIdle) (s_srcs s) -> In (Src c id (Some p) SIdle) (s_srcs s')) -> W p s'.
Proof.
  intros H E T P Sl L F S. eapply w_keep; eauto. intros u thu Eu. rewrite T in Eu. destruct (Nat.eq_dec t u) as [<-|Ne].
  - rewrite (upd_same _ _ _ E th') in Eu. injection Eu as <-. exists th. auto.
  - rewrite upd_other in Eu by auto. exists thu. auto.
Qed.
Lemma pools_same s s' p : s_pools s' = s_pools s -> forall q', nth_error (s_pools s') p = Some (Some q') -> exists q, nth_error (s_pools s) p = Some (Some q) /\ p_idle q' = p_idle q /\ p_items q' = p_items q.
Proof. intros ->. eauto. Qed.
Lemma pools_upd l r q x : nth_error l r = Some (Some q) -> forall p, p <> r \/ (p_idle x = p_idle q /\ p_items x = p_items q) ->
  forall q', nth_error (upd l r (Some x)) p = Some (Some q') -> exists q, nth_error l p = Some (Some q) /\ p_idle q' = p_idle q /\ p_items q' = p_items q.
Proof.
  intros Q p D q' Q'. destruct (Nat.eq_dec r p) as [<-|Ne]; [|rewrite upd_other in Q' by auto; eauto]. rewrite (upd_same _ _ _ Q) in Q'. injection Q' as <-. destruct D as [|(D1 & D2)]; [congruence|]. eauto.
Qed.
Lemma w_emit p s e : W p s -> W p (emit s e).
Proof. intros H. exact H. Qed.
Definition calm_top (th : thread) : Prop := forall f k, t_stack th = f :: k -> low f = true.
Lemma calm_loop p th : calm_top th -> ~ top_loop p th.
Proof. intros C (w & k & St). specialize (C _ _ St). discriminate. Qed.

Lemma ob_emit s e : OB s -> OB (emit s e).
Proof. intros H. constructor; try apply H. intros t th f p w E Fi Fc N. right. eapply (b_frame _ H); eauto. Qed.
Lemma ob_pools s l : OB s -> OB (set_pools s l).
Proof. intros H. constructor; apply H. Qed.
Lemma ob_srcs s l : OB s -> (forall p c id, In (Src c id (Some p) SIdle) l -> In (Src c id (Some p) SIdle) (s_srcs s)) -> OB (set_srcs s l).
Proof. intros H S. constructor; try apply H. intros p c id X. eapply (b_open _ H); eauto. Qed.
Lemma ob_thread s t th th' : OB s -> nth_error (s_threads s) t = Some th ->
  (forall f k, t_stack th' = f :: k -> (forall g, In g k -> low g = true)) ->
  (forall f, In f (t_stack th') -> In f (t_stack th) \/ ((forall p w, fcaller f = Some (p, w) -> w <> WFinal -> In (ENew t p) (s_trace s)) /\ (forall p c id, f <> FOther p c id) /\ (forall c, f = FClose c -> is_open s c = false))) ->
  OB (set_threads s (upd (s_threads s) t th')).
Proof.
  intros H E L F. assert (D : forall u thu, nth_error (upd (s_threads s) t th') u = Some thu -> (u = t /\ thu = th') \/ nth_error (s_threads s) u = Some thu). { intros u thu Eu. destruct (Nat.eq_dec t u) as [<-|Ne]; [left; split; auto; rewrite (upd_same _ _ _ E th') in Eu; congruence|rewrite upd_other in Eu by auto; auto]. }
  constructor; try apply H; flat.
  - intros u thu f k Eu St. destruct (D u thu Eu) as [(-> & ->)|Eu0]; [eapply L; eauto|eapply (b_low _ H); eauto].
  - intros u thu f p w Eu Fi Fc N. destruct (D u thu Eu) as [(-> & ->)|Eu0]; [|eapply (b_frame _ H); eauto]. destruct (F f Fi) as [Fi0|(X & _)]; [eapply (b_frame _ H); eauto|eauto].
  - intros u thu p c id Eu Fi. destruct (D u thu Eu) as [(-> & ->)|Eu0]; [|eapply (b_other _ H); eauto]. destruct (F _ Fi) as [Fi0|(_ & X & _)]; [eapply (b_other _ H); eauto|eapply X; eauto].
  - intros u thu c Eu Fi. destruct (D u thu Eu) as [(-> & ->)|Eu0]; [|eapply (b_close _ H); eauto]. destruct (F _ Fi) as [Fi0|(_ & _ & X)]; [eapply (b_close _ H); eauto|eapply X; eauto].
Qed.
Lemma ob_push s t th g : OB s -> nth_error (s_threads s) t = Some th -> calm_top th -> (forall p w, fcaller g = Some (p, w) -> w <> WFinal -> In (ENew t p) (s_trace s)) -> (forall p c id, g <> FOther p c id) -> (forall c, g = FClose c -> is_open s c = false) ->
  OB (set_threads s (upd (s_threads s) t (with_stack th (g :: t_stack th)))).
Proof.
  intros H E C A B D. apply ob_thread with (th := th); auto.
  - intros f k X. cbn in X. injection X as <- <-. intros h Hi. destruct (t_stack th) as [|f k] eqn:St; [destruct Hi|]. destruct Hi as [<-|Hi]; [eapply C; eauto|]. eapply (b_low _ H); eauto.
  - intros f [<-|Fi]; auto.
Qed.
Lemma w_push p s t th g : W p s -> nth_error (s_threads s) t = Some th -> calm_top th -> (forall id w, g <> FRemove p id w) -> W p (set_threads s (upd (s_threads s) t (with_stack th (g :: t_stack th)))).
Proof.
  intros H E C N. eapply w_thread; [exact H|exact E|reflexivity|apply pools_same; reflexivity| | | |auto]; cbn; auto.
  - intros q _ _ L. destruct (calm_loop p th C L).
  - intros id w [X|X]; auto. destruct (N id w X).
Qed.
Lemma drop_o s s' t th p : O s -> nth_error (s_threads s) t = Some th -> calm_top th -> drop s t p = Ok s' -> O s'.
Proof.
  intros (B & Ws) E C D. destruct (drop_shape _ _ _ _ _ E D) as (q & Q & X). set (s1 := set_pool s p _) in X. assert (B1 : OB s1) by (apply ob_pools; auto). assert (W1 : forall r, W r s1).
  { intros r. eapply w_keep; [apply Ws| | |auto]; [|intros u thu Eu; exists thu; auto]. apply (pools_upd _ _ _ _ Q). right. auto. }
  destruct X as [(_ & ->)|(_ & ->)]; [split; auto|]. split.
  - refine (ob_push (emit s1 (EZero p)) t th (FLoop p WFinal) (ob_emit _ _ B1) E C _ _ _); try discriminate. intros r w X N. injection X as <- <-. congruence.
  - intros r. refine (w_push r (emit s1 (EZero p)) t th (FLoop p WFinal) (W1 r) E C _). discriminate.
Qed.
Lemma o_emit s e : O s -> O (emit s e).
Proof. intros (B & Ws). split; [apply ob_emit; auto|exact Ws]. Qed.
(* a frame is replaced *)
Lemma o_swap s t th f k g : O s -> nth_error (s_threads s) t = Some th -> t_stack th = f :: k -> fcaller g = fcaller f -> (forall p c id, g <> FOther p c id) -> (forall c, g <> FClose c) -> (forall p id w, g <> FRemove p id w) -> (forall p, ~ top_loop p th \/ exists w, g = FLoop p w) ->
  O (set_threads s (upd (s_threads s) t (with_stack th (g :: k)))).
Proof.
  intros (B & Ws) E St Fc N1 N2 N3 L. split.
  - apply ob_thread with (th := th); auto.
    + intros h m X. cbn in X. injection X as <- <-. eapply (b_low _ B); eauto.
    + intros h [<-|H]; [|left; rewrite St; cbn; auto]. right. split; [|split; auto; intros c X; destruct (N2 c X)]. intros p w X Nw. rewrite Fc in X. eapply (b_frame _ B); eauto. rewrite St. cbn. auto.
  - intros p. eapply w_thread; [apply Ws|exact E|reflexivity|apply pools_same; reflexivity| | | |auto]; cbn; auto.
    + intros q _ _ X. destruct (L p) as [X0|(w & ->)]; [contradiction|]. exists w, k. auto.
    + intros id w [X|X]; [destruct (N3 _ _ _ X)|]. rewrite St. cbn. auto.
Qed.
Lemma o_pop s t th f k : O s -> nth_error (s_threads s) t = Some th -> t_stack th = f :: k -> (forall p q, top_loop p th -> nth_error (s_pools s) p = Some (Some q) -> p_items q = []) -> O (set_threads s (upd (s_threads s) t (with_stack th k))).
Proof.
  intros (B & Ws) E St L. split.
  - apply ob_thread with (th := th); auto.
    + intros h m X g G. cbn in X. eapply (b_low _ B); eauto. rewrite X. cbn. auto.
    + intros h H. left. rewrite St. cbn. auto.
  - intros p. eapply w_thread; [apply Ws|exact E|reflexivity|apply pools_same; reflexivity| | | |auto]; cbn; auto.
    + intros q Q N X. destruct N. eauto.
    + intros id w X. rewrite St. cbn. auto.
Qed.
Lemma pop_calm s t th f k : OB s -> nth_error (s_threads s) t = Some th -> t_stack th = f :: k -> calm_top (with_stack th k).
Proof. intros B E St g m X. cbn in X. eapply (b_low _ B); eauto. rewrite X. cbn. auto. Qed.
(* a source which has been called is removed *)
Lemma o_without s c id p st : O s -> NoDup (map pair_of (s_srcs s)) -> st <> SIdle -> In (Src c id (Some p) st) (s_srcs s) -> O (set_srcs s (without (s_srcs s) c id)).
Proof.
  intros (B & Ws) I N Y. split; [apply ob_srcs; auto; intros r c' id' X; apply without_in in X; tauto|]. intros r. eapply w_keep; [apply Ws|apply pools_same; reflexivity|intros u thu Eu; exists thu; auto|].
  intros c' id' X. apply without_in. split; auto. intros P. unfold pair_of in P. cbn in P. injection P as -> ->.
  assert (Z : Src c id (Some r) SIdle = Src c id (Some p) st) by (eapply pair_inj; eauto). injection Z as _ Z. congruence.
Qed.
Lemma drain_end_o s s' t th f k p w : Inv None s -> O s -> nth_error (s_threads s) t = Some th -> t_stack th = f :: k -> fcaller f = Some (p, w) -> (forall r q, top_loop r th -> nth_error (s_pools s) r = Some (Some q) -> p_items q = []) ->
  drain_end s t p w = Ok s' -> O s'.
Proof.
  intros I A E St G L. assert (Fi : In f (t_stack th)) by (rewrite St; cbn; auto). unfold drain_end. rewrite (pop_eq _ _ _ _ _ E St). pose proof (o_pop _ _ _ _ _ A E St L) as A1. apply (o_emit _ (EDrained t p w)) in A1. destruct w as [|c id|].
  - intros X. injection X as <-. exact A1.
  - unfold idle_end. intros X. refine (drop_o _ _ t _ p _ _ _ X); [|flat; apply (upd_same _ _ _ E)|destruct A as (B & _); eapply pop_calm; eauto].
    destruct (i_run _ _ I _ _ _ _ _ _ E Fi G) as (st & Ns & Y). pose proof (o_without _ c id p st A1 (i_ids _ _ I) Ns Y) as A2. apply (o_emit _ (EIdleEnd t c id p)) in A2. exact A2.
  - flat. destruct (nth_error (s_pools s) p) as [[q|]|] eqn:Q; try discriminate. intros X. injection X as <-. apply o_emit. destruct A1 as (B1 & W1). split; [apply ob_pools; auto|]. intros r. eapply w_keep; [apply W1| |intros u thu Eu; exists thu; auto|auto]. flat. intros q' Q'.
    destruct (Nat.eq_dec p r) as [<-|Ne]; [rewrite (upd_same _ _ _ Q) in Q'; discriminate|rewrite upd_other in Q' by auto; eauto].
Qed.
Lemma default_o s t th s' p : Inv None s -> O s -> nth_error (s_threads s) t = Some th -> get_default s t th = (s', p) -> O s'.
Proof.
  intros I (B & Ws) E. unfold get_default. destruct (t_slot th) as [p0|] eqn:Sl; intros X; injection X as <- <-; [apply o_emit; split; auto|]. rewrite (on_thread_eq _ _ th) by exact E. apply o_emit. set (n := length (s_pools s)). set (s1 := emit _ _). split.
  - refine (ob_thread s1 t th (with_slot th (Some n)) (ob_emit _ _ (ob_pools _ _ B)) E _ _); [|cbn; auto]. intros f k X. cbn in X. eapply (b_low _ B); eauto.
  - intros r. destruct (Nat.eq_dec r n) as [->|Ne].
    + intros u thu q Eu Slu Q. flat. unfold s1 in Q. cbn in Q. rewrite nth_error_app2, Nat.sub_diag in Q by (unfold n; lia). injection Q as <-. cbn. split; [congruence|]. split; [congruence|]. auto.
    + eapply (w_thread r s _ t th (with_slot th (Some n))); [apply Ws|exact E|reflexivity| | | | |auto]; cbn; auto; [|intros X; congruence].
      intros q' Q'. destruct (lt_dec r (length (s_pools s))); [rewrite nth_error_app1 in Q' by auto; eauto|]. rewrite nth_error_app2 in Q' by lia. destruct (r - length (s_pools s))%nat as [|m] eqn:D; [unfold n in Ne; lia|destruct m; discriminate].
Qed.
Definition at_client (th : thread) : Prop := t_stack th = [] \/ exists p l w k, t_stack th = FCb p l w :: k.
Lemma client_calm th : at_client th -> calm_top th.
Proof. intros [St|(p & l & w & k & St)] f m X; rewrite St in X; [discriminate|]. injection X as <- _. auto. Qed.
Lemma no_remove s t th p q : Inv None s -> JK s -> OB s -> nth_error (s_threads s) t = Some th -> at_client th -> t_slot th = Some p -> nth_error (s_pools s) p = Some (Some q) ->
  forall u thu id w, nth_error (s_threads s) u = Some thu -> ~ In (FRemove p id w) (t_stack thu).
Proof.
  intros I (A & _) B E C Sl Q u thu id w Eu Fi. destruct (frame_live _ _ _ _ p w I Eu Fi eq_refl) as (q1 & Q1 & R1). destruct (slot_live _ _ _ _ _ I E Sl) as (q2 & Q2 & R2). assert (Nw : w <> WFinal). { intros X. apply R1 in X. assert (q1 = q2) by congruence. subst. lia. }
  pose proof (b_frame _ B u thu _ p w Eu Fi eq_refl Nw) as N. pose proof (j_slot _ _ _ A _ _ _ E Sl) as N2. assert (u = t) as -> by (eapply good_new; [apply (j_good _ _ _ A)|eauto..]). assert (thu = th) as -> by congruence.
  destruct C as [St|(p0 & l & w0 & k & St)]; rewrite St in Fi; [destruct Fi|]. destruct Fi as [X|Fi]; [discriminate|]. pose proof (b_low _ B _ _ _ _ E St _ Fi). discriminate.
Qed.
Lemma client_o s s' t th a : Inv None s -> fair s (t, a) -> own s (t, a) -> JK s -> SC s -> O s -> nth_error (s_threads s) t = Some th -> exists_thread th = true -> at_client th -> client s t th a = Ok s' -> O s'.
Proof.
  intros I F Ow K Sc A E EX C. pose proof (client_calm _ C) as Cm. assert (Same : Ok s = Ok s' -> O s') by (intros X; injection X as <-; auto). destruct a as [| |c| |c id|c|c|c|b n]; cbn [client]; auto.
  - unfold do_call. destruct (get_default s t th) as (s1 & p) eqn:D. pose proof (default_o _ _ _ _ _ I A E D) as A1. destruct (default_ok _ _ _ _ _ I E D) as (I1 & E1 & Cx & Sr & q & Q & Rq). destruct (default_jk _ _ _ _ _ I K E EX D) as (K1 & N1 & _). set (th1 := with_slot th (Some p)) in *. destruct c as [|d| | |r].
    + intros X. injection X as <-. exact A1.
    + unfold add. rewrite D. set (s2 := emit _ _). assert (Q2 : nth_error (s_pools s2) p = Some (Some q)) by exact Q. rewrite (pool_at _ _ _ Q2). cbn [bind]. assert (A2 : O s2) by (apply (o_emit _ (EAdd t p (s_items s1) d)) in A1; destruct A1 as ([] & W1); split; [constructor; assumption|exact W1]).
      assert (NR : forall u thu id w, nth_error (s_threads s1) u = Some thu -> ~ In (FRemove p id w) (t_stack thu)) by (destruct A1 as (B1 & _); eapply (no_remove s1 t th1); eauto; reflexivity).
      destruct (Nat.eqb_spec (p_idle q) 0) as [Z|NZ].
      * unfold attach. destruct (nth_error (s_ctxs s2) (t_ctx th)) as [(id & [|])|] eqn:N; cbn [bind]; try discriminate. intros X. injection X as <-. destruct A2 as (B2 & W2). split.
        -- constructor; try apply B2; flat.
           ++ intros u thu f r w Eu Fi Fc Nw. right. eapply (b_frame _ B2); eauto.
           ++ intros r c0 id0 X. unfold is_open. flat. apply in_app_iff in X. destruct X as [X|[X|[]]].
              ** apply (b_open _ B2) in X. unfold is_open in X. destruct (Nat.eq_dec (t_ctx th) c0) as [<-|Ne]; [rewrite (upd_same _ _ _ N); auto|rewrite upd_other by auto; auto].
              ** injection X as <- _ _. rewrite (upd_same _ _ _ N). auto.
           ++ intros u thu c0 Eu Fi. pose proof (b_close _ B2 _ _ _ Eu Fi) as X. unfold is_open in *. flat. destruct (Nat.eq_dec (t_ctx th) c0) as [<-|Ne]; [rewrite N in X; discriminate|rewrite upd_other by auto; auto].
        -- intros r. destruct (Nat.eq_dec r p) as [->|Ne].
           ++ intros u thu q' Eu Slu Q'. flat. cbn in Q'. rewrite (upd_same _ _ _ Q) in Q'. injection Q' as <-. cbn [p_idle p_items]. assert (N0 : (0 < id)%nat) by (eapply (i_pos _ _ I1); exact N). split; [|split].
              ** intros _. exists (t_ctx th). apply in_app_iff. cbn. auto.
              ** intros _. left. lia.
              ** intros u' thu' id' w' Eu' Fi'. destruct (NR _ _ _ _ Eu' Fi').
           ++ eapply (w_keep r s2); [apply W2| |intros u thu Eu; exists thu; auto|]; flat.
              ** apply (pools_upd _ _ _ _ Q). auto.
              ** intros c0 id0 X. apply in_app_iff. auto.
      * intros X. injection X as <-. destruct A2 as (B2 & W2). split; [apply ob_pools; auto|]. intros r. destruct (Nat.eq_dec r p) as [->|Ne].
        -- intros u thu q' Eu Slu Q'. cbn in Q'. rewrite (upd_same _ _ _ Q) in Q'. injection Q' as <-. cbn [p_idle p_items]. destruct (W2 p u thu q Eu Slu Q2) as (X1 & X2 & X3). split; auto.
        -- eapply (w_keep r s2); [apply W2| |intros u thu Eu; exists thu; auto|auto]; flat. apply (pools_upd _ _ _ _ Q). auto.
    + intros X. injection X as <-. rewrite (push_eq _ _ th1) by exact E1. apply (o_emit _ (EDrain t p)) in A1. destruct A1 as (B1 & W1). split.
      * refine (ob_push (emit s1 (EDrain t p)) t th1 (FLoop p WClient) B1 E1 Cm _ _ _); try discriminate. intros r w X _. injection X as <- <-. right. exact N1.
      * intros r. refine (w_push r (emit s1 (EDrain t p)) t th1 (FLoop p WClient) (W1 r) E1 Cm _). discriminate.
    + rewrite (pool_at _ _ _ Q). cbn [bind]. intros X. injection X as <-. apply o_emit. destruct A1 as (B1 & W1). split; [apply ob_pools; auto|]. intros r. eapply (w_keep r s1); [apply W1| |intros u thu Eu; exists thu; auto|auto]. apply (pools_upd _ _ _ _ Q). auto.
    + intros X. refine (drop_o _ _ t th r _ _ _ X); [apply o_emit; auto|exact E|exact Cm].
  - destruct (is_open s c); auto. unfold dispatch. destruct (find _ (s_srcs s)) as [y|] eqn:Fd; auto. apply found1 in Fd. destruct Fd as (Y & Py). unfold pair_of in Py. injection Py as <- <-. destruct (c_owner y) as [p|] eqn:Oy; [|intros X; injection X as <-; apply o_emit; auto]. destruct (c_stat y) eqn:Sy; auto.
    set (s1 := emit _ _). destruct (the_pool s1 p) as [q|] eqn:Q0; [|discriminate]. cbn [bind]. apply pool_of in Q0. assert (Q : nth_error (s_pools s) p = Some (Some q)) by exact Q0. intros X. injection X as <-. rewrite (push_eq _ _ th) by exact E.
    assert (Y1 : In (Src (c_ctx y) (c_id y) (Some p) SIdle) (s_srcs s)) by (destruct y; cbn in *; subst; auto). assert (N : In (ENew t p) (s_trace s)) by (apply Ow; apply Sc; exact Y1). destruct K as (K & _). assert (Tq : p_thread q = t_self th) by (eapply (j_self _ _ _ K); [apply at_view; exact Q|exact N|exact E]).
    rewrite Tq, Nat.eqb_refl. destruct A as (B & Ws). set (g := FLoop p _). match goal with |- O (set_threads ?x _) => set (s2 := x) end.
    assert (Sub : forall r c' id', In (Src c' id' (Some r) SIdle) (mark (s_srcs s) (c_ctx y) (c_id y) SRun) -> In (Src c' id' (Some r) SIdle) (s_srcs s)) by (intros r c' id' X; apply mark_idle in X; [tauto|discriminate|reflexivity]).
    assert (B2 : OB s2). { unfold s2, set_pool. apply ob_pools. apply ob_emit. apply ob_srcs; auto. }
    split.
    + refine (ob_push s2 t th g B2 E Cm _ _ _); try discriminate. intros r w X _. injection X as <- <-. right. exact N.
    + intros r. destruct (Nat.eq_dec r p) as [->|Ne].
      * intros u thu q' Eu Slu Q'. flat. unfold s2 in Q'. cbn in Q'. rewrite (upd_same _ _ _ Q) in Q'. injection Q' as <-. cbn [p_idle p_items]. split; [congruence|]. split; auto. intros _. right. cbn in Eu. destruct (Nat.eq_dec t u) as [<-|Nu].
        -- rewrite (upd_same _ _ _ E) in Eu. injection Eu as <-. eexists. eexists. reflexivity.
        -- rewrite upd_other in Eu by auto. destruct Nu. eapply good_new; [apply (j_good _ _ _ K)|exact N|eapply (j_slot _ _ _ K); eauto].
      * eapply (w_thread r s _ t th (with_stack th (g :: t_stack th))); [apply Ws|exact E|reflexivity| | | | |]; cbn; auto.
        -- apply (pools_upd _ _ _ _ Q). auto.
        -- intros q0 _ _ L. destruct (calm_loop _ _ Cm L).
        -- intros id w [X|X]; [discriminate|auto].
        -- intros c' id' X. apply mark_idle; [discriminate|reflexivity|]. split; auto. intros P. assert (Z : Src c' id' (Some r) SIdle = Src (c_ctx y) (c_id y) (Some p) SIdle) by (eapply pair_inj; [apply (i_ids _ _ I)|auto..]). injection Z as _ _ Z. congruence.
  - intros X. injection X as <-. destruct (is_open s c); auto. rewrite (on_thread_eq _ _ _ _ E). destruct A as (B & Ws). split.
    + apply (ob_thread s t th); auto. intros f k X. cbn in X. eapply (b_low _ B); eauto.
    + intros r. eapply (w_thread r s _ t th (with_ctx th c)); [apply Ws|exact E|reflexivity|apply pools_same; reflexivity|..]; cbn; auto.
  - destruct (is_open s c); auto. unfold attach. destruct (nth_error (s_ctxs s) c) as [(id & [|])|] eqn:N; cbn [bind]; try discriminate. intros X. injection X as <-. destruct A as (B & Ws). split.
    + constructor; try apply B; flat.
      * intros u thu f r w Eu Fi Fc Nw. right. eapply (b_frame _ B); eauto.
      * intros r c0 id0 X. unfold is_open. flat. apply in_app_iff in X. destruct X as [X|[X|[]]]; [|discriminate]. apply (b_open _ B) in X. unfold is_open in X. destruct (Nat.eq_dec c c0) as [<-|Ne]; [rewrite (upd_same _ _ _ N); auto|rewrite upd_other by auto; auto].
      * intros u thu c0 Eu Fi. pose proof (b_close _ B _ _ _ Eu Fi) as X. unfold is_open in *. flat. destruct (Nat.eq_dec c c0) as [<-|Ne]; [rewrite N in X; discriminate|rewrite upd_other by auto; auto].
    + intros r. eapply (w_keep r s); [apply Ws|apply pools_same; reflexivity|intros u thu Eu; exists thu; auto|]. flat. intros c0 id0 X. apply in_app_iff. auto.
  - intros X. injection X as <-. destruct (unused s c) eqn:U; auto. rewrite (push_eq _ _ th) by exact E. destruct A as (B & Ws). set (s1 := set_ctxs _ _).
    assert (O1 : forall c0, c0 <> c -> is_open s1 c0 = is_open s c0) by (intros c0 Ne; unfold is_open, s1; flat; rewrite upd_other by auto; auto).
    assert (O2 : is_open s1 c = false). { unfold is_open, s1. flat. destruct (nth_error (s_ctxs s) c) eqn:X; [rewrite (upd_same _ _ _ X); auto|]. rewrite (proj2 (nth_error_None _ _)); auto. rewrite upd_length. apply nth_error_None. auto. }
    assert (B1 : OB s1). { constructor; try apply B.
      - intros r c0 id0 X. destruct (Nat.eq_dec c0 c) as [->|Ne]; [|rewrite O1 by auto; eapply (b_open _ B); exact X]. destruct (Ow r id0). apply Sc. exact X.
      - intros u thu c0 Eu Fi. destruct (Nat.eq_dec c0 c) as [->|Ne]; auto. rewrite O1 by auto. eapply (b_close _ B); eauto. }
    split.
    + refine (ob_push s1 t th (FClose c) B1 E Cm _ _ _); try discriminate. intros c0 X. injection X as <-. exact O2.
    + intros r. refine (w_push r s1 t th (FClose c) _ E Cm _); [exact (Ws r)|discriminate].
Qed.
(* what follows needs nothing about the items and the removed sources *)
Lemma drop_ob s s' t th p : OB s -> nth_error (s_threads s) t = Some th -> calm_top th -> drop s t p = Ok s' -> OB s'.
Proof.
  intros B E C D. destruct (drop_shape _ _ _ _ _ E D) as (q & Q & X). set (s1 := set_pool s p _) in X. assert (B1 : OB s1) by (apply ob_pools; auto). destruct X as [(_ & ->)|(_ & ->)]; auto.
  refine (ob_push (emit s1 (EZero p)) t th (FLoop p WFinal) (ob_emit _ _ B1) E C _ _ _); try discriminate. intros r w X N. injection X as <- <-. congruence.
Qed.
Lemma ob_source s c id o : OB s -> nth_error (s_ctxs s) c = Some (id, true) -> OB (attached s c id o).
Proof.
  intros B N. constructor; try apply B; unfold attached; flat.
  - intros u thu f r w Eu Fi Fc Nw. right. eapply (b_frame _ B); eauto.
  - intros r c0 id0 X. unfold is_open. flat. apply in_app_iff in X. destruct X as [X|[X|[]]].
    + apply (b_open _ B) in X. unfold is_open in X. destruct (Nat.eq_dec c c0) as [<-|Ne]; [rewrite (upd_same _ _ _ N); auto|rewrite upd_other by auto; auto].
    + injection X as <- _ _. rewrite (upd_same _ _ _ N). auto.
  - intros u thu c0 Eu Fi. pose proof (b_close _ B _ _ _ Eu Fi) as X. unfold is_open in *. flat. destruct (Nat.eq_dec c c0) as [<-|Ne]; [rewrite N in X; discriminate|rewrite upd_other by auto; auto].
Qed.
Lemma ob_swap s t th f k g : OB s -> nth_error (s_threads s) t = Some th -> t_stack th = f :: k -> fcaller g = fcaller f -> (forall p c id, g <> FOther p c id) -> (forall c, g <> FClose c) -> OB (set_threads s (upd (s_threads s) t (with_stack th (g :: k)))).
Proof.
  intros B E St Fc N1 N2. apply ob_thread with (th := th); auto.
  - intros h m X. cbn in X. injection X as <- <-. eapply (b_low _ B); eauto.
  - intros h [<-|H]; [|left; rewrite St; cbn; auto]. right. split; [|split; auto; intros c X; destruct (N2 c X)]. intros p w X Nw. rewrite Fc in X. eapply (b_frame _ B); eauto. rewrite St. cbn. auto.
Qed.
Lemma ob_pop s t th f k : OB s -> nth_error (s_threads s) t = Some th -> t_stack th = f :: k -> OB (set_threads s (upd (s_threads s) t (with_stack th k))).
Proof.
  intros B E St. apply ob_thread with (th := th); auto.
  - intros h m X g G. cbn in X. eapply (b_low _ B); eauto. rewrite X. cbn. auto.
  - intros h H. left. rewrite St. cbn. auto.
Qed.
Lemma default_ob s t th s' p : OB s -> nth_error (s_threads s) t = Some th -> get_default s t th = (s', p) -> OB s'.
Proof.
  intros B E. unfold get_default. destruct (t_slot th) as [p0|] eqn:Sl; intros X; injection X as <- <-; [apply ob_emit; auto|]. rewrite (on_thread_eq _ _ th) by exact E. apply ob_emit. set (n := length (s_pools s)). set (s1 := emit _ _).
  refine (ob_thread s1 t th (with_slot th (Some n)) (ob_emit _ _ (ob_pools _ _ B)) E _ _); [|cbn; auto]. intros f k X. cbn in X. eapply (b_low _ B); eauto.
Qed.
Lemma ob_items s n : OB s -> OB (set_items s n).
Proof. intros []. constructor; assumption. Qed.
Lemma client_ob s s' t th a : Inv None s -> own s (t, a) -> JK s -> SC s -> OB s -> nth_error (s_threads s) t = Some th -> exists_thread th = true -> at_client th -> client s t th a = Ok s' -> OB s'.
Proof.
  intros I Ow K Sc B E EX C. pose proof (client_calm _ C) as Cm. assert (Same : Ok s = Ok s' -> OB s') by (intros X; injection X as <-; auto). destruct a as [| |c| |c id|c|c|c|b n]; cbn [client]; auto.
  - unfold do_call. destruct (get_default s t th) as (s1 & p) eqn:D. pose proof (default_ob _ _ _ _ _ B E D) as B1. destruct (default_ok _ _ _ _ _ I E D) as (I1 & E1 & Cx & Sr & q & Q & Rq). destruct (default_jk _ _ _ _ _ I K E EX D) as (K1 & N1 & _). set (th1 := with_slot th (Some p)) in *. destruct c as [|d| | |r].
    + intros X. injection X as <-. exact B1.
    + unfold add. rewrite D. set (s2 := emit _ _). assert (B2 : OB s2) by (apply ob_emit, ob_items; auto). destruct (the_pool s2 p) as [q0|]; [|discriminate]. cbn [bind]. destruct (Nat.eqb (p_idle q0) 0).
      * unfold attach. destruct (nth_error (s_ctxs s2) (t_ctx th)) as [(id & [|])|] eqn:N; cbn [bind]; try discriminate. intros X. injection X as <-. apply ob_pools. exact (ob_source s2 (t_ctx th) id (Some p) B2 N).
      * intros X. injection X as <-. apply ob_pools; auto.
    + intros X. injection X as <-. rewrite (push_eq _ _ th1) by exact E1. apply (ob_emit _ (EDrain t p)) in B1. refine (ob_push (emit s1 (EDrain t p)) t th1 (FLoop p WClient) B1 E1 Cm _ _ _); try discriminate. intros r w X _. injection X as <- <-. right. exact N1.
    + destruct (the_pool s1 p) as [q0|]; [|discriminate]. cbn [bind]. intros X. injection X as <-. apply ob_emit, ob_pools; auto.
    + intros X. refine (drop_ob _ _ t th r _ _ _ X); [apply ob_emit; auto|exact E|exact Cm].
  - destruct (is_open s c); auto. unfold dispatch. destruct (find _ (s_srcs s)) as [y|] eqn:Fd; auto. apply found1 in Fd. destruct Fd as (Y & Py). unfold pair_of in Py. injection Py as <- <-. destruct (c_owner y) as [p|] eqn:Oy; [|intros X; injection X as <-; apply ob_emit; auto]. destruct (c_stat y) eqn:Sy; auto.
    set (s1 := emit _ _). destruct (the_pool s1 p) as [q|] eqn:Q0; [|discriminate]. cbn [bind]. apply pool_of in Q0. assert (Q : nth_error (s_pools s) p = Some (Some q)) by exact Q0. intros X. injection X as <-. rewrite (push_eq _ _ th) by exact E.
    assert (Y1 : In (Src (c_ctx y) (c_id y) (Some p) SIdle) (s_srcs s)) by (destruct y; cbn in *; subst; auto). assert (N : In (ENew t p) (s_trace s)) by (apply Ow; apply Sc; exact Y1). destruct K as (K & _). assert (Tq : p_thread q = t_self th) by (eapply (j_self _ _ _ K); [apply at_view; exact Q|exact N|exact E]).
    rewrite Tq, Nat.eqb_refl. set (g := FLoop p _). match goal with |- OB (set_threads ?x _) => set (s2 := x) end.
    assert (B2 : OB s2). { unfold s2, set_pool. apply ob_pools. apply ob_emit. apply ob_srcs; auto. intros r c' id' X. apply mark_idle in X; [tauto|discriminate|reflexivity]. }
    refine (ob_push s2 t th g B2 E Cm _ _ _); try discriminate. intros r w X _. injection X as <- <-. right. exact N.
  - intros X. injection X as <-. destruct (is_open s c); auto. rewrite (on_thread_eq _ _ _ _ E). apply (ob_thread s t th); auto. intros f k X. cbn in X. eapply (b_low _ B); eauto.
  - destruct (is_open s c); auto. unfold attach. destruct (nth_error (s_ctxs s) c) as [(id & [|])|] eqn:N; cbn [bind]; try discriminate. intros X. injection X as <-. exact (ob_source s c id None B N).
  - intros X. injection X as <-. destruct (unused s c) eqn:U; auto. rewrite (push_eq _ _ th) by exact E. set (s1 := set_ctxs _ _).
    assert (O1 : forall c0, c0 <> c -> is_open s1 c0 = is_open s c0) by (intros c0 Ne; unfold is_open, s1; flat; rewrite upd_other by auto; auto).
    assert (O2 : is_open s1 c = false). { unfold is_open, s1. flat. destruct (nth_error (s_ctxs s) c) eqn:X; [rewrite (upd_same _ _ _ X); auto|]. rewrite (proj2 (nth_error_None _ _)); auto. rewrite upd_length. apply nth_error_None. auto. }
    assert (B1 : OB s1). { constructor; try apply B.
      - intros r c0 id0 X. destruct (Nat.eq_dec c0 c) as [->|Ne]; [|rewrite O1 by auto; eapply (b_open _ B); exact X]. destruct (Ow r id0). apply Sc. exact X.
      - intros u thu c0 Eu Fi. destruct (Nat.eq_dec c0 c) as [->|Ne]; auto. rewrite O1 by auto. eapply (b_close _ B); eauto. }
    refine (ob_push s1 t th (FClose c) B1 E Cm _ _ _); try discriminate. intros c0 X. injection X as <-. exact O2.
Qed.
Lemma drain_end_ob s s' t th f k p w : OB s -> nth_error (s_threads s) t = Some th -> t_stack th = f :: k -> drain_end s t p w = Ok s' -> OB s'.
Proof.
  intros B E St. unfold drain_end. rewrite (pop_eq _ _ _ _ _ E St). pose proof (ob_pop _ _ _ _ _ B E St) as B1. apply (ob_emit _ (EDrained t p w)) in B1. destruct w as [|c id|].
  - intros X. injection X as <-. exact B1.
  - unfold idle_end. intros X. refine (drop_ob _ _ t _ p _ _ _ X); [|flat; apply (upd_same _ _ _ E)|exact (pop_calm _ _ _ _ _ B E St)]. apply ob_emit, ob_srcs; auto. intros r c' id' Y. apply without_in in Y. tauto.
  - flat. destruct (nth_error (s_pools s) p) as [[q|]|]; try discriminate. intros X. injection X as <-. apply ob_emit. exact (ob_pools _ _ B1).
Qed.
Lemma step_ob s s' x : Inv None s -> own s x -> JK s -> SC s -> OB s -> step s x = Ok s' -> OB s'.
Proof.
  intros I Ow K Sc B. destruct x as (t & a). unfold step. assert (Same : Ok s = Ok s' -> OB s') by (intros X; injection X as <-; auto). destruct (nth_error (s_threads s) t) as [th|] eqn:E; auto. destruct (i_shape _ _ I _ _ E) as (S1 & S2). destruct (t_stack th) as [|f k] eqn:St.
  - assert (C : at_client th) by (left; auto). destruct (t_life th) eqn:L; auto.
    + destruct a; auto. destruct (existsb _ (s_threads s)); auto. intros X. injection X as <-. rewrite (on_thread_eq _ _ _ _ E). apply ob_emit. apply (ob_thread s t th); auto. intros f k X. cbn in X. congruence.
    + assert (EX : exists_thread th = true) by (unfold exists_thread; rewrite L; auto). destruct a as [| |c| |c id|c|c|c|b n]; try (intros; eapply client_ob; eauto; fail). intros X. injection X as <-. rewrite (on_thread_eq _ _ _ _ E). apply ob_emit.
      rewrite (push_eq _ _ (with_ctx (with_life th Exiting) (if b then 0 else t_ctx th)%nat)) by apply (upd_same _ _ _ E). flat. rewrite upd_twice. cbn [t_stack with_ctx with_life]. rewrite St.
      apply (ob_thread s t th); auto; [intros f k X; cbn in X; injection X as <- <-; intros g []|]. intros f [<-|[]]. right. repeat split; discriminate.
  - assert (EX : exists_thread th = true) by (apply S2; congruence). destruct f as [p w|p l w|p l w|p id w|p w|p c id|n|c].
    + destruct a; auto. unfold loop. destruct (the_pool s p) as [q|]; [|discriminate]. cbn [bind]. destruct (p_items q) as [|i l].
      * destruct (Nat.eqb_spec (p_idle q) 0); [eapply drain_end_ob; eauto|]. intros X. injection X as <-. rewrite (swap_eq _ t th (FLoop p w) k); [|exact E|exact St]. refine (ob_swap (set_pool _ _ _) t th _ k _ (ob_pools _ _ B) E St _ _ _); try discriminate; reflexivity.
      * intros X. injection X as <-. rewrite (swap_eq _ t th (FLoop p w) k); [|exact E|exact St]. refine (ob_swap (emit (set_pool _ _ _) _) t th _ k _ (ob_emit _ _ (ob_pools _ _ B)) E St _ _ _); try discriminate; reflexivity.
    + destruct a; auto. unfold batch. destruct l as [|(i & d) l]; intros X; injection X as <-.
      * rewrite (swap_eq _ t th (FBatch p [] w) k); [|exact E|exact St]. refine (ob_swap s t th _ k _ B E St _ _ _); try discriminate; reflexivity.
      * rewrite (swap_eq _ t th (FBatch p ((i, d) :: l) w) k); [|exact E|exact St]. refine (ob_swap (emit s _) t th _ k _ (ob_emit _ _ B) E St _ _ _); try discriminate; reflexivity.
    + assert (C : at_client th) by (right; eauto 6). destruct a as [| |c| |c id|c|c|c|b n]; try (intros; eapply client_ob; eauto; fail). intros X. injection X as <-. rewrite (swap_eq _ t th (FCb p l w) k); [|exact E|exact St]. refine (ob_swap (emit s _) t th _ k _ (ob_emit _ _ B) E St _ _ _); try discriminate; reflexivity.
    + destruct a; auto. unfold remove. rewrite (swap_eq _ t th (FRemove p id w) k); [|exact E|exact St]. flat. set (th' := with_stack th (FRemoved p w :: k)). pose proof (upd_same _ _ _ E th') as Eq.
      assert (B1 : OB (set_threads s (upd (s_threads s) t th'))) by (refine (ob_swap s t th _ k _ B E St _ _ _); try discriminate; reflexivity). destruct (find _ (s_srcs s)) as [y|]; [|intros X; injection X as <-; apply ob_emit; auto].
      apply (ob_emit _ (EUnsource t p id 0 (c_owner y))) in B1. assert (W1 := ob_srcs _ (without (s_srcs s) 0 id) B1 ltac:(intros r c' id' Y; apply without_in in Y; tauto)). assert (M1 := ob_srcs _ (mark (s_srcs s) 0 id SGone) B1 ltac:(intros r c' id' Y; apply mark_idle in Y; [tauto|discriminate|reflexivity])).
      destruct (c_owner y) as [o|]; [destruct (c_stat y)|]; intros X; try (injection X as <-; assumption). refine (drop_ob _ _ t th' o W1 Eq _ X). intros g m Z. cbn in Z. injection Z as <- _. auto.
    + destruct a; auto. eapply drain_end_ob; eauto.
    + destruct (b_other _ B t th p c id E). rewrite St. cbn. auto.
    + destruct a; auto. cbn in S1. subst k.
      assert (End : OB (emit (on_thread (pop s t) t (fun th => with_ctx (with_life th Dead) 0)) (EDead t))).
      { rewrite (pop_eq _ _ _ _ _ E St), (on_thread_eq _ _ (with_stack th [])) by apply (upd_same _ _ _ E). flat. rewrite upd_twice. apply ob_emit. apply (ob_thread s t th); auto; cbn; [discriminate|intros f []]. }
      unfold exit_step. destruct (t_slot th) as [p|]; [|intros X; injection X as <-; exact End]. destruct n as [|n]; [intros X; injection X as <-; exact End|].
      rewrite (on_thread_eq _ _ _ _ E). rewrite (swap_eq (set_threads s (upd (s_threads s) t (with_slot th None))) t (with_slot th None) (FExit (S n)) [] (FExit n)); [|apply (upd_same _ _ _ E)|exact St]. flat. rewrite upd_twice. intros X. refine (drop_ob _ _ t _ p _ _ _ X); [|flat; apply (upd_same _ _ _ E)|intros g m Z; cbn in Z; injection Z as <- _; auto].
      apply (ob_thread s t th); auto; cbn; [intros f k Z; injection Z as <- <-; intros g []|]. intros f [<-|[]]. right. repeat split; discriminate.
    + destruct a; auto. unfold close_step. destruct (find _ (s_srcs s)) as [y|]; [|intros X; injection X as <-; rewrite (pop_eq _ _ _ _ _ E St); eapply ob_pop; eauto].
      assert (W1 := ob_srcs _ (without (s_srcs s) c (c_id y)) B ltac:(intros r c' id' Y; apply without_in in Y; tauto)). apply (ob_emit _ (EClosed c (c_id y) (c_owner y))) in W1. destruct (c_owner y) as [o|]; intros X; [|injection X as <-; exact W1]. refine (drop_ob _ _ t th o W1 E _ X). intros g m Z. rewrite St in Z. injection Z as <- _. auto.
Qed.
Lemma start_ob selfs n : OB (start selfs n).
Proof.
  assert (Th : forall t th, nth_error (s_threads (start selfs n)) t = Some th -> t_stack th = []). { intros t th H. apply nth_error_In in H. cbn in H. apply in_map_iff in H. destruct H as (a & <- & _). auto. }
  constructor; try (cbn; contradiction); intros t th; intros.
  - rewrite (Th _ _ H) in H0. discriminate.
  - rewrite (Th _ _ H) in H0. destruct H0.
  - rewrite (Th _ _ H). auto.
  - rewrite (Th _ _ H) in H0. destruct H0.
Qed.
Lemma step_o s s' x : Inv None s -> fair s x -> own s x -> JK s -> SC s -> O s -> step s x = Ok s' -> (forall e, In e (s_trace s') -> ~ stranger e) -> O s'.
Proof.
  intros I F Ow K Sc A. destruct x as (t & a). unfold step. assert (Same : Ok s = Ok s' -> (forall e, In e (s_trace s') -> ~ stranger e) -> O s') by (intros X; injection X as <-; auto). destruct (nth_error (s_threads s) t) as [th|] eqn:E; auto. destruct (i_shape _ _ I _ _ E) as (S1 & S2). destruct (t_stack th) as [|f k] eqn:St.
  - assert (C : at_client th) by (left; auto). destruct (t_life th) eqn:L; auto.
    + destruct a; auto. destruct (existsb _ (s_threads s)); auto. intros X _. injection X as <-. rewrite (on_thread_eq _ _ _ _ E). apply o_emit. destruct A as (B & Ws). split.
      * apply (ob_thread s t th); auto. intros f k X. cbn in X. congruence.
      * intros r. eapply (w_thread r s _ t th (with_life th Alive)); [apply Ws|exact E|reflexivity|apply pools_same; reflexivity|..]; cbn; auto.
    + assert (EX : exists_thread th = true) by (unfold exists_thread; rewrite L; auto). destruct a as [| |c| |c id|c|c|c|b n]; try (intros; eapply client_o; eauto; fail). intros X _. injection X as <-. rewrite (on_thread_eq _ _ _ _ E). apply o_emit.
      rewrite (push_eq _ _ (with_ctx (with_life th Exiting) (if b then 0 else t_ctx th)%nat)) by apply (upd_same _ _ _ E). flat. rewrite upd_twice. cbn [t_stack with_ctx with_life]. rewrite St. destruct A as (B & Ws). split.
      * apply (ob_thread s t th); auto; [intros f k X; cbn in X; injection X as <- <-; intros g []|]. intros f [<-|[]]. right. repeat split; discriminate.
      * intros r. eapply (w_thread r s _ t th); [apply Ws|exact E|reflexivity|apply pools_same; reflexivity|..]; cbn; auto.
        -- intros q _ _ (w & k & X). congruence.
        -- intros id w [X|[]]. discriminate.
  - assert (EX : exists_thread th = true) by (apply S2; congruence). destruct f as [p w|p l w|p l w|p id w|p w|p c id|n|c].
    + assert (TL : forall r, top_loop r th -> r = p) by (intros r (w0 & k0 & X); congruence). destruct a; auto. unfold loop. destruct (the_pool s p) as [q|] eqn:Q; [|discriminate]. cbn [bind]. apply pool_of in Q. destruct (p_items q) as [|i l] eqn:Qi.
      * destruct (Nat.eqb_spec (p_idle q) 0); [intros X _; eapply drain_end_o; eauto; [reflexivity|]; intros r q0 X0 Q0; apply TL in X0; subst; congruence|]. intros X _. injection X as <-. rewrite (swap_eq _ t th (FLoop p w) k); [|exact E|exact St]. destruct A as (B & Ws). match goal with |- O (set_threads ?x _) => set (s1 := x) end. split.
        -- refine (ob_thread s1 t th _ (ob_pools _ _ B) E _ _).
           ++ intros h m X. cbn in X. injection X as <- <-. eapply (b_low _ B); eauto.
           ++ intros h [<-|H]; [|left; rewrite St; cbn; auto]. right. split; [|split; discriminate]. intros r w' X Nw. injection X as <- <-. apply (b_frame _ B t th (FLoop p w) p w E); [rewrite St; cbn; auto|reflexivity|exact Nw].
        -- intros r. destruct (Nat.eq_dec r p) as [->|Ne].
           ++ intros u thu q' Eu Slu Q'. cbn in Q'. rewrite (upd_same _ _ _ Q) in Q'. injection Q' as <-. cbn. split; [congruence|]. split; [congruence|auto].
           ++ eapply (w_thread r s _ t th); [apply Ws|exact E|reflexivity|..]; cbn; auto; [apply (pools_upd _ _ _ _ Q); auto| |].
              ** intros q0 _ _ X. apply TL in X. congruence.
              ** intros id w' [X|X]; [congruence|]. rewrite St. cbn. auto.
      * intros X _. injection X as <-. rewrite (swap_eq _ t th (FLoop p w) k); [|exact E|exact St]. destruct A as (B & Ws). match goal with |- O (set_threads ?x _) => set (s1 := x) end. split.
        -- refine (ob_thread s1 t th _ (ob_emit _ _ (ob_pools _ _ B)) E _ _).
           ++ intros h m X. cbn in X. injection X as <- <-. eapply (b_low _ B); eauto.
           ++ intros h [<-|H]; [|left; rewrite St; cbn; auto]. right. split; [|split; discriminate]. intros r w' X Nw. injection X as <- <-. right. apply (b_frame _ B t th (FLoop p w) p w E); [rewrite St; cbn; auto|reflexivity|exact Nw].
        -- intros r. assert (FR : forall r id w', In (FRemove r id w') (FBatch p (i :: l) w :: k) -> In (FRemove r id w') (t_stack th)) by (intros r0 id w' [X|X]; [discriminate|]; rewrite St; cbn; auto). destruct (Nat.eq_dec r p) as [->|Ne].
           ++ intros u thu q' Eu Slu Q'. cbn in Q', Eu. rewrite (upd_same _ _ _ Q) in Q'. injection Q' as <-. cbn [p_idle p_items].
              assert (Old : exists th0, nth_error (s_threads s) u = Some th0 /\ t_slot th0 = Some p) by (destruct (Nat.eq_dec t u) as [<-|Nu]; [exists th; rewrite (upd_same _ _ _ E) in Eu; injection Eu as <-; auto|rewrite upd_other in Eu by auto; eauto]). destruct Old as (th0 & E0 & Sl0). destruct (Ws p u th0 q E0 Sl0 Q) as (X1 & _ & X3). split; auto. split; [congruence|].
              intros v thv id w' Ev Fi. cbn in Ev. destruct (Nat.eq_dec t v) as [<-|Nv]; [rewrite (upd_same _ _ _ E) in Ev; injection Ev as <-; exact (X3 t th id w' E (FR _ _ _ Fi))|rewrite upd_other in Ev by auto; eapply X3; eauto].
           ++ eapply (w_thread r s _ t th); [apply Ws|exact E|reflexivity|..]; cbn [set_threads emit set_pool set_pools s_srcs s_pools t_slot t_stack with_stack]; auto; [apply (pools_upd _ _ _ _ Q); auto|]. intros q0 _ _ X. apply TL in X. congruence.
    + assert (NL : forall r, ~ top_loop r th) by (intros r (w0 & k0 & X); congruence). destruct a; auto. unfold batch. destruct l as [|(i & d) l]; intros X _; injection X as <-.
      * rewrite (swap_eq _ t th (FBatch p [] w) k); [|exact E|exact St]. eapply o_swap; eauto; try discriminate.
      * rewrite (swap_eq _ t th (FBatch p ((i, d) :: l) w) k); [|exact E|exact St]. apply (o_emit _ (EDestroy t p i d)) in A. refine (o_swap _ t th _ k (FCb p l w) A E St _ _ _ _ _); auto; discriminate.
    + assert (C : at_client th) by (right; eauto 6). assert (NL : forall r, ~ top_loop r th) by (intros r (w0 & k0 & X); congruence). destruct a as [| |c| |c id|c|c|c|b n]; try (intros; eapply client_o; eauto; fail). intros X _. injection X as <-. rewrite (swap_eq _ t th (FCb p l w) k); [|exact E|exact St].
      apply (o_emit _ (EReturn t)) in A. refine (o_swap _ t th _ k (FBatch p l w) A E St _ _ _ _ _); auto; discriminate.
    + assert (NL : forall r, ~ top_loop r th) by (intros r (w0 & k0 & X); congruence). destruct a; auto. unfold remove. rewrite (swap_eq _ t th (FRemove p id w) k); [|exact E|exact St]. flat. set (th' := with_stack th (FRemoved p w :: k)). pose proof (upd_same _ _ _ E th') as Eq.
      pose proof (o_swap _ _ _ _ _ (FRemoved p w) A E St eq_refl ltac:(discriminate) ltac:(discriminate) ltac:(discriminate) (fun r => or_introl (NL r))) as A1. fold th' in A1.
      destruct (find _ (s_srcs s)) as [y|] eqn:Fd; [|intros X H; injection X as <-; destruct (H (EBad t p id)); cbn; auto]. apply found in Fd. destruct Fd as (Y & Py & Lv).
      assert (Fi : In (FRemove p id w) (t_stack th)) by (rewrite St; cbn; auto).
      assert (Main : forall l, c_owner y = Some p -> (l = without (s_srcs s) 0 id \/ l = mark (s_srcs s) 0 id SGone) -> O (set_srcs (emit (set_threads s (upd (s_threads s) t th')) (EUnsource t p id 0 (c_owner y))) l)).
      { intros l Oy Hl. assert (Hl' : forall z, c_stat z = SIdle -> (In z l <-> In z (s_srcs s) /\ pair_of z <> (0%nat, id))) by (destruct Hl as [->| ->]; [apply without_idle|apply mark_idle; discriminate]). apply (o_emit _ (EUnsource t p id 0 (c_owner y))) in A1. destruct A1 as (B1 & W1). split.
        - apply ob_srcs; auto. intros r c' id' X. apply (Hl' (Src c' id' (Some r) SIdle) eq_refl) in X. tauto.
        - intros r. destruct (Nat.eq_dec r p) as [->|Ne].
          + intros u thu q Eu Slu Q. destruct (W1 p u thu q Eu Slu Q) as (X1 & X2 & X3). assert (Old : exists th0, nth_error (s_threads s) u = Some th0 /\ t_slot th0 = Some p) by (cbn in Eu; destruct (Nat.eq_dec t u) as [<-|Nu]; [exists th; rewrite Eq in Eu; injection Eu as <-; auto|rewrite upd_other in Eu by auto; eauto]). destruct Old as (th0 & E0 & Sl0).
            destruct A as (_ & Ws). destruct (Ws p u th0 q E0 Sl0 Q) as (_ & _ & Y3). pose proof (Y3 t th id w E Fi) as Z. split; [congruence|auto].
          + eapply (w_keep r); [apply (W1 r)|apply pools_same; reflexivity|intros u thu Eu; exists thu; auto|]. flat. intros c' id' X. apply (Hl' (Src c' id' (Some r) SIdle) eq_refl). split; auto. intros P. assert (Z : Src c' id' (Some r) SIdle = y) by (eapply pair_inj; [apply (i_ids _ _ I)|auto|auto|congruence]). subst y. cbn in Oy. congruence. }
      intros X H.
      assert (Oy : c_owner y = Some p).
      { assert (In (EUnsource t p id 0 (c_owner y)) (s_trace s')). { destruct (c_owner y) as [o|]; [destruct (c_stat y)|]; try (injection X as <-; cbn; auto; fail). apply (drop_shape _ _ t th') in X; [|exact Eq]. destruct X as (q & Q & [(_ & ->)|(_ & ->)]); cbn; auto. }
        specialize (H _ H0). cbn in H. destruct (c_owner y) as [o|]; [|destruct H; discriminate]. destruct (Nat.eq_dec o p); [congruence|]. destruct H. congruence. }
      rewrite Oy in X. specialize (fun l => Main l Oy). rewrite Oy in Main. destruct (c_stat y); [|injection X as <-; apply Main; auto..]. refine (drop_o _ _ t th' p _ _ _ X); [apply Main; auto|exact Eq|]. intros g m Z. cbn in Z. injection Z as <- _. auto.
    + assert (NL : forall r, ~ top_loop r th) by (intros r (w0 & k0 & X); congruence). destruct a; auto. intros X _. eapply drain_end_o; eauto; [reflexivity|]. intros r q X0. destruct (NL r X0).
    + destruct A as (B & _). destruct (b_other _ B t th p c id E). rewrite St. cbn. auto.
    + assert (NL : forall r, ~ top_loop r th) by (intros r (w0 & k0 & X); congruence). destruct a; auto. cbn in S1. subst k.
      assert (End : O (emit (on_thread (pop s t) t (fun th => with_ctx (with_life th Dead) 0)) (EDead t))).
      { rewrite (pop_eq _ _ _ _ _ E St), (on_thread_eq _ _ (with_stack th [])) by apply (upd_same _ _ _ E). flat. rewrite upd_twice. apply o_emit. destruct A as (B & Ws). split.
        - apply (ob_thread s t th); auto; cbn; [discriminate|intros f []].
        - intros r. eapply (w_thread r s _ t th); [apply Ws|exact E|reflexivity|apply pools_same; reflexivity|..]; cbn; auto; [intros q _ _ X; destruct (NL _ X)|intros id w []]. }
      unfold exit_step. destruct (t_slot th) as [p|]; [|intros X _; injection X as <-; exact End]. destruct n as [|n]; [intros X _; injection X as <-; exact End|].
      rewrite (on_thread_eq _ _ _ _ E). rewrite (swap_eq (set_threads s (upd (s_threads s) t (with_slot th None))) t (with_slot th None) (FExit (S n)) [] (FExit n)); [|apply (upd_same _ _ _ E)|exact St]. flat. rewrite upd_twice. intros X _. refine (drop_o _ _ t _ p _ _ _ X); [|flat; apply (upd_same _ _ _ E)|intros g m Z; cbn in Z; injection Z as <- _; auto].
      destruct A as (B & Ws). split.
      * apply (ob_thread s t th); auto; cbn; [intros f k Z; injection Z as <- <-; intros g []|]. intros f [<-|[]]. right. repeat split; discriminate.
      * intros r. eapply (w_thread r s _ t th); [apply Ws|exact E|reflexivity|apply pools_same; reflexivity|..]; cbn; auto; [discriminate|intros q _ _ Z; destruct (NL _ Z)|intros id w [Z|[]]; discriminate].
    + assert (NL : forall r, ~ top_loop r th) by (intros r (w0 & k0 & X); congruence). destruct a; auto. unfold close_step. destruct (find _ (s_srcs s)) as [y|] eqn:Fd; [|intros X _; injection X as <-; rewrite (pop_eq _ _ _ _ _ E St); eapply o_pop; eauto; intros r q X0; destruct (NL r X0)].
      apply find_some in Fd. destruct Fd as (Y & P). apply andb_true_iff in P. destruct P as (P & Q). apply Nat.eqb_eq in P. assert (Sy : c_stat y = SIdle) by (destruct (c_stat y); congruence). destruct A as (B & Ws). destruct (c_owner y) as [o|] eqn:Oy.
      * assert (X1 : is_open s c = true) by (apply (b_open _ B o c (c_id y)); destruct y; cbn in *; subst; auto). assert (X2 : is_open s c = false) by (eapply (b_close _ B t th); eauto; rewrite St; cbn; auto). congruence.
      * intros X _. injection X as <-. apply o_emit. split; [apply ob_srcs; auto; intros r c' id' X; apply without_in in X; tauto|]. intros r. eapply (w_keep r s); [apply Ws|apply pools_same; reflexivity|intros u thu Eu; exists thu; auto|]. flat. intros c' id' X. apply without_in. split; auto. intros Pz.
        assert (Z : Src c' id' (Some r) SIdle = y) by (eapply pair_inj; [apply (i_ids _ _ I)|auto|auto|unfold pair_of in *; cbn in *; congruence]). subst y. cbn in Oy. congruence.
Qed.

(* ---------------- runs ---------------- *)
Lemma tr_on s t f : s_trace (on_thread s t f) = s_trace s.
Proof. unfold on_thread. destruct (nth_error (s_threads s) t); auto. Qed.
Lemma tr_push s t f : s_trace (push s t f) = s_trace s.
Proof. apply tr_on. Qed.
Lemma tr_pop s t : s_trace (pop s t) = s_trace s.
Proof. apply tr_on. Qed.
Lemma tr_swap s t f : s_trace (swap s t f) = s_trace s.
Proof. unfold swap. rewrite tr_push. apply tr_pop. Qed.
Ltac grow := rewrite ?tr_swap, ?tr_push, ?tr_pop, ?tr_on; flat; rewrite ?tr_swap, ?tr_push, ?tr_pop, ?tr_on; flat; rewrite ?tr_swap, ?tr_push, ?tr_pop, ?tr_on; cbn [In]; auto.
Lemma drop_grows s s' t p : drop s t p = Ok s' -> forall e, In e (s_trace s) -> In e (s_trace s').
Proof. unfold drop. destruct (the_pool s p); [|discriminate]. cbn [bind]. destruct (_ =? 0); intros X; injection X as <-; intros e; grow. Qed.
Lemma default_grows s s' t th p : get_default s t th = (s', p) -> forall e, In e (s_trace s) -> In e (s_trace s').
Proof. unfold get_default. destruct (t_slot th); intros X; injection X as <- <-; intros e; grow. Qed.
Lemma drain_end_grows s s' t p w : drain_end s t p w = Ok s' -> forall e, In e (s_trace s) -> In e (s_trace s').
Proof.
  unfold drain_end. destruct w; [intros X; injection X as <-; intros e; grow|intros X e H; unfold idle_end in X; eapply drop_grows; eauto; grow|]. destruct (nth_error _ p) as [[]|]; try discriminate. intros X. injection X as <-. intros e. grow.
Qed.
Lemma client_grows s s' t th a : client s t th a = Ok s' -> forall e, In e (s_trace s) -> In e (s_trace s').
Proof.
  destruct a as [| |c| |c id|c|c|c|b n]; cbn [client]; try (intros X; injection X as <-; auto; fail).
  - unfold do_call, add. destruct (get_default s t th) as (s1 & p) eqn:D. pose proof (default_grows _ _ _ _ _ D) as G. destruct c as [|d| | |r].
    + intros X. injection X as <-. auto.
    + destruct (the_pool _ p) as [q|]; [|discriminate]. cbn [bind]. destruct (Nat.eqb _ _); [unfold attach; destruct (nth_error _ _) as [(id & [|])|]; cbn [bind]; try discriminate|]; intros X; injection X as <-; intros e H; grow.
    + intros X. injection X as <-. intros e H. grow.
    + destruct (the_pool _ p) as [q|]; [|discriminate]. cbn [bind]. intros X. injection X as <-. intros e H. grow.
    + intros X e H. eapply drop_grows; eauto. grow.
  - destruct (is_open s c); [|intros X; injection X as <-; auto]. unfold dispatch. destruct (find _ _) as [y|]; [|intros X; injection X as <-; auto]. destruct (c_owner y) as [p|]; [|intros X; injection X as <-; intros e H; grow]. destruct (c_stat y); try (intros X; injection X as <-; auto; fail).
    destruct (the_pool _ p) as [q|]; [|discriminate]. cbn [bind]. intros X. injection X as <-. intros e H. grow.
  - intros X. injection X as <-. destruct (is_open s c); auto. intros e H. grow.
  - destruct (is_open s c); [|intros X; injection X as <-; auto]. unfold attach. destruct (nth_error _ _) as [(id & [|])|]; cbn [bind]; try discriminate. intros X. injection X as <-. intros e H. grow.
  - intros X. injection X as <-. destruct (unused s c); auto. intros e H. grow.
Qed.
Lemma step_grows s s' x : step s x = Ok s' -> forall e, In e (s_trace s) -> In e (s_trace s').
Proof.
  destruct x as (t & a). unfold step. assert (Same : Ok s = Ok s' -> forall e, In e (s_trace s) -> In e (s_trace s')) by (intros X; injection X as <-; auto). destruct (nth_error (s_threads s) t) as [th|]; auto. destruct (t_stack th) as [|f k].
  - destruct (t_life th); auto.
    + destruct a; auto. destruct (existsb _ _); auto. intros X. injection X as <-. intros e H. grow.
    + destruct a; try apply client_grows. intros X. injection X as <-. intros e H. grow.
  - destruct f as [p w|p l w|p l w|p id w|p w|p c id|n|c].
    + destruct a; auto. unfold loop. destruct (the_pool s p) as [q|]; [|discriminate]. cbn [bind]. destruct (p_items q); [destruct (Nat.eqb _ _); [apply drain_end_grows|]|]; intros X; injection X as <-; intros e H; grow.
    + destruct a; auto. unfold batch. destruct l as [|(i & d) l]; intros X; injection X as <-; intros e H; grow.
    + destruct a; try apply client_grows. intros X. injection X as <-. intros e H. grow.
    + destruct a; auto. unfold remove. destruct (find _ _) as [y|]; [|intros X; injection X as <-; intros e H; grow]. destruct (c_owner y) as [o|]; [destruct (c_stat y)|]; intros X e H; try (injection X as <-; grow; fail). eapply drop_grows; eauto. grow.
    + destruct a; auto. apply drain_end_grows.
    + destruct a; auto. unfold idle_end. intros X e H. eapply drop_grows; eauto. grow.
    + destruct a; auto. unfold exit_step. destruct (t_slot th); [destruct n|]; intros X e H; try (injection X as <-; grow; fail). eapply drop_grows; eauto. grow.
    + destruct a; auto. unfold close_step. destruct (find _ _) as [y|]; [destruct (c_owner y)|]; intros X e H; try (injection X as <-; grow; fail). eapply drop_grows; eauto. grow.
Qed.
Lemma run_grows l : forall s s', run s l = Ok s' -> forall e, In e (s_trace s) -> In e (s_trace s').
Proof.
  induction l as [|a l IH]; intros s s'; cbn [run]; [intros X; injection X as <-; auto|]. destruct (step s a) as [s1|] eqn:E; [|discriminate]. cbn [bind]. intros R e H. eapply IH; eauto. eapply step_grows; eauto.
Qed.
Lemma run_o l : forall s s', Inv None s -> all_along fair s l -> all_along own s l -> JK s -> SC s -> O s -> run s l = Ok s' -> (forall e, In e (s_trace s') -> ~ stranger e) -> O s'.
Proof.
  induction l as [|a l IH]; intros s s' I F Ow K Sc A; cbn [run]; [intros X _; injection X as <-; exact A|]. destruct F as (F & Fl). destruct Ow as (Ow & Owl). destruct (step_ok s a I F) as (s1 & E & I1). rewrite E in *. cbn [bind]. intros R N.
  apply (IH s1 s'); auto; [exact (step_jk _ _ _ I F K E)|exact (step_sc _ _ _ I Sc E)|]. apply (step_o s s1 a); auto. intros e H. apply N. eapply run_grows; eauto.
Qed.
Lemma start_o selfs n : O (start selfs n).
Proof.
  split; [apply start_ob|]. intros p t th q E. apply nth_error_In in E. cbn in E. apply in_map_iff in E. destruct E as (a & <- & _). discriminate.
Qed.

