(* Every step of every execution of the idle queue keeps the invariant *)
From Verif Require Import Base IdleQueueModel IdleQueueSpec IdleQueueProofs IdleQueueInv.

Definition fine (oq : option queue) (r : res state) : Prop := (exists s', r = Ok s' /\ inv s') \/ (r = Fail UseAfterFree /\ oq = None).
Lemma fine_ok oq h oq' srcs nxt k tr L1 L2 Ds : INV h oq' srcs nxt k tr L1 L2 Ds -> fine oq (Ok (State h oq' srcs nxt k tr)).
Proof. intros I. left. eexists. split; [reflexivity|]. exists L1, L2, Ds. exact I. Qed.

Ltac flat := cbn [bind the_queue s_heap s_queue s_srcs s_next s_stack s_trace set_heap set_queue set_stack emit pop].

Ltac open I := destruct I as [v_q0 v_done0 v_frames0 v_nodup0 v_items0 v_fresh0 v_good0 v_act0 v_scope0 v_snap0 v_sources0 v_ids0 v_cancel0 v_take0 v_code0 v_live0].

Lemma after_run_fine h oq srcs nxt sid done a k k0 tr L1 L2 Ds :
  INV h oq srcs nxt (FRunCb sid done a :: k) tr L1 L2 Ds -> fine oq (after_run (State h oq srcs nxt k0 tr) sid done a k).
Proof.
  intros I. destruct (INV_after_run _ _ _ _ _ _ _ _ _ _ _ _ I) as (it & N & Hd & Hn). unfold after_run. flat. rewrite (get_ok _ _ _ N). flat.
  destruct (it_destroy it); flat; eapply fine_ok; eauto.
Qed.

Lemma run_end_fine h q srcs nxt sid done k k0 tr L2 Ds :
  INV h (Some q) srcs nxt (FRunLoop sid done :: k) tr [] L2 Ds -> fine (Some q) (run_end (State h (Some q) srcs nxt k0 tr) sid done k).
Proof.
  intros I. destruct (INV_run_end _ _ _ _ _ _ _ _ _ _ I) as (h' & E & Ds' & Hs & Hn). unfold run_end. flat. rewrite E. flat.
  destruct (q_first q) eqn:Ef; flat; eapply fine_ok; [apply Hs; discriminate|apply Hn; reflexivity].
Qed.

(* the first item *)
Lemma first_done h q srcs nxt k tr L1 L2 Ds a it :
  INV h (Some q) srcs nxt k tr L1 L2 Ds -> q_first q = Some a -> nth_error h a = Some (Some it) ->
  if it_completed it then exists L, L1 = a :: L else L1 = [] /\ exists L, L2 = a :: L.
Proof.
  intros I Ef N. open I. destruct v_q0 as (R & _). pose proof (lseg_hd _ _ _ R) as Eh. rewrite Ef in Eh. destruct v_done0 as (F1 & F2).
  destruct L1 as [|b L1].
  - destruct L2 as [|b L2]; [discriminate|]. cbn in Eh. injection Eh as <-. rewrite (flag_get _ _ _ _ _ F2 (or_introl eq_refl) N). eauto.
  - cbn in Eh. injection Eh as <-. rewrite (flag_get _ _ _ _ _ F1 (or_introl eq_refl) N). eauto.
Qed.
Lemma first_none h q srcs nxt k tr L1 L2 Ds : INV h (Some q) srcs nxt k tr L1 L2 Ds -> q_first q = None -> L1 = [] /\ L2 = [].
Proof. intros I Ef. open I. destruct v_q0 as (R & _). pose proof (lseg_hd _ _ _ R) as Eh. rewrite Ef in Eh. destruct L1, L2; try discriminate. auto. Qed.
Lemma first_some h q srcs nxt k tr L1 L2 Ds a : INV h (Some q) srcs nxt k tr L1 L2 Ds -> q_first q = Some a -> L1 ++ L2 <> [] /\ In a (L1 ++ L2) /\ exists it, nth_error h a = Some (Some it).
Proof.
  intros I Ef. open I. destruct v_q0 as (R & _). pose proof (lseg_hd _ _ _ R) as Eh. rewrite Ef in Eh.
  assert (In a (L1 ++ L2)). { destruct (L1 ++ L2); [discriminate|]. cbn in Eh. injection Eh as <-. cbn. auto. }
  split; [intros X; rewrite X in *; discriminate|]. split; auto. eapply lseg_alive; eauto.
Qed.

Lemma run_loop_fine h oq srcs nxt sid done k tr L1 L2 Ds :
  INV h oq srcs nxt (FRunLoop sid done :: k) tr L1 L2 Ds -> fine oq (run_loop (State h oq srcs nxt (FRunLoop sid done :: k) tr) sid done k).
Proof.
  intros I. unfold run_loop. flat. destruct oq as [q|]; [|right; auto]. flat. destruct (q_first q) as [a|] eqn:Ef.
  - destruct (first_some _ _ _ _ _ _ _ _ _ _ I Ef) as (_ & _ & it & N). rewrite (get_ok _ _ _ N). flat.
    pose proof (first_done _ _ _ _ _ _ _ _ _ _ _ I Ef N) as Fd. destruct (it_completed it).
    + destruct Fd as (L & ->). rewrite (put_ok _ _ _ _ N). flat. pose proof (v_frames _ _ _ _ _ _ _ _ _ I) as Vf; inversion Vf as [|? D ? Ds' Hf Hk]; subst.
      pose proof (INV_take _ _ _ _ _ _ _ _ _ _ _ _ _ _ I N) as T. destruct (it_run it) eqn:Er; flat.
      * eapply fine_ok. exact T.
      * destruct (after_run_fine _ _ _ _ _ _ _ _ (FRunLoop sid done :: k) _ _ _ _ T) as [X|(_ & X)]; [left; exact X|discriminate].
    + destruct Fd as (-> & _). eapply run_end_fine. exact I.
  - destruct (first_none _ _ _ _ _ _ _ _ _ I Ef) as (-> & ->). eapply run_end_fine. exact I.
Qed.

Definition client (k : list frame) : Prop := Forall (fun f => is_cb f = true) k.

Lemma dispatch_fine h oq srcs nxt k tr L1 L2 Ds sid : client k -> INV h oq srcs nxt k tr L1 L2 Ds -> fine oq (dispatch (State h oq srcs nxt k tr) sid).
Proof.
  intros Cb I. unfold dispatch. flat. destruct (existsb _ srcs) eqn:Ex; [|eapply fine_ok; exact I]. flat. destruct oq as [q|]; [|right; auto]. flat.
  apply existsb_exists in Ex. destruct Ex as (x & Ix & Ex). apply andb_prop in Ex. destruct Ex as (E1 & E2). apply Nat.eqb_eq in E1.
  destruct (v_q _ _ _ _ _ _ _ _ _ I) as (_ & _ & _ & [(_ & Z)|(Z & b & Es & _)] & _); [rewrite Z in Ix; destruct Ix|].
  rewrite Es in Ix. destruct Ix as [<-|[]]. cbn in E1, E2. subst sid. destruct b; [discriminate|]. rewrite Es. cbn [map fst]. rewrite Nat.eqb_refl.
  destruct (INV_begin _ _ _ [(q_source q, true)] _ _ _ _ _ _ (FRunLoop (q_source q) None) (EPass (q_source q)) I Cb) as (h' & Em & I'); [left; auto|].
  rewrite Em. flat. eapply fine_ok. exact I'.
Qed.

Lemma cancel_all_fine h oq srcs nxt k tr L1 L2 Ds w k0 : client k -> INV h oq srcs nxt k tr L1 L2 Ds -> fine oq (cancel_all (State h oq srcs nxt k0 tr) w k).
Proof.
  intros Cb I. unfold cancel_all. flat. destruct oq as [q|]; [|right; auto]. flat.
  destruct (INV_begin _ _ _ srcs _ _ _ _ _ _ (FAllLoop w) EAll I Cb) as (h' & Em & I'); [right; eauto|].
  rewrite Em. flat. eapply fine_ok. exact I'.
Qed.

Lemma fine_weaken q r oq : fine (Some q) r -> fine oq r.
Proof. intros [X|(_ & X)]; [left; auto|discriminate]. Qed.

Lemma drop_fine h oq srcs nxt k tr L1 L2 Ds k0 : client k -> INV h oq srcs nxt k tr L1 L2 Ds -> fine oq (drop (State h oq srcs nxt k0 tr) k).
Proof.
  intros Cb I. unfold drop. flat. destruct oq as [q|]; [|right; auto]. flat. apply (INV_refs _ _ _ _ _ _ _ _ _ (q_refs q - 1)) in I.
  destruct (q_refs q - 1 =? 0).
  - eapply fine_weaken. eapply cancel_all_fine; auto. apply INV_neutral; [reflexivity|exact Logic.I|exact I].
  - eapply fine_ok. exact I.
Qed.

(* what source_clear does to an empty queue *)
Lemma clear_cases h q srcs nxt k f tr L1 L2 Ds : INV h (Some q) srcs nxt (f :: k) tr L1 L2 Ds -> forall h' k0 r,
  r = match q_first q with None => source_clear (State h' (Some q) srcs nxt k0 tr) | Some _ => Ok (State h' (Some q) srcs nxt k0 tr) end ->
  exists tr1 q' srcs', r = Ok (State h' (Some q') srcs' nxt k0 tr1) /\ q_refs q' = q_refs q /\
  ((tr1 = tr /\ Some q' = Some q /\ srcs' = srcs /\
     ((exists q0, Some q = Some q0 /\ (L1 ++ L2 <> [] \/ q_source q0 = 0%nat)) \/ (exists a tag, f = FTagMidCb a tag))) \/
  (exists q0, Some q = Some q0 /\ L1 ++ L2 = [] /\ q_source q0 <> 0%nat /\ tr1 = EUnsource (q_source q0) :: tr /\ Some q' = Some (set_source q0 0) /\
     srcs' = without srcs (q_source q0))).
Proof.
  intros I h' k0 r ->. destruct (q_first q) as [a|] eqn:Ef.
  - destruct (first_some _ _ _ _ _ _ _ _ _ _ I Ef) as (Ne & _). exists tr, q, srcs. split; auto. split; auto. left. repeat (split; auto). left. exists q. auto.
  - unfold source_clear. flat. destruct (first_none _ _ _ _ _ _ _ _ _ I Ef) as (-> & ->). destruct (Nat.eqb_spec (q_source q) 0) as [Z|Z].
    + exists tr, q, srcs. split; auto. split; auto. left. repeat (split; auto). left. exists q. auto.
    + exists (EUnsource (q_source q) :: tr), (set_source q 0), (without srcs (q_source q)). split.
      * unfold source_remove. flat. destruct (v_q _ _ _ _ _ _ _ _ _ I) as (_ & _ & _ & [(Z' & _)|(_ & b & Es & _)] & _); [contradiction|].
        rewrite Es at 1. cbn [existsb fst]. rewrite Nat.eqb_refl. reflexivity.
      * split; auto. right. exists q. repeat (split; auto).
Qed.

Lemma all_end_fine h q srcs nxt k tr L2 Ds w k0 : INV h (Some q) srcs nxt (FAllLoop w :: k) tr [] L2 Ds -> fine (Some q) (all_end (State h (Some q) srcs nxt k0 tr) w k).
Proof.
  intros I. unfold all_end. flat. destruct (clear_cases _ _ _ _ _ _ _ _ _ _ I h k0 _ eq_refl) as (tr1 & q' & srcs' & E & _ & Cs). rewrite E. flat.
  pose proof (v_code _ _ _ _ _ _ _ _ _ I) as Cb. cbn [tl] in Cb. pose proof (v_frames _ _ _ _ _ _ _ _ _ I) as Vf; inversion Vf as [|? D ? Ds' Hf Hk]; subst.
  assert (I' : INV h (Some q') srcs' nxt k (EAllEnd :: tr1) [] L2 Ds').
  { eapply INV_finish; [exact I|left; exists w; repeat split|exact Cs]. }
  destruct w.
  - eapply fine_ok. exact I'.
  - eapply fine_weaken. eapply drop_fine; eauto.
  - flat. eapply fine_ok. apply INV_neutral; [reflexivity|exact Logic.I|]. eapply INV_gone. exact I'.
Qed.

(* removal of the first item *)
Lemma pop_facts h q srcs nxt k tr L1 L2 Ds a it :
  INV h (Some q) srcs nxt k tr L1 L2 Ds -> q_first q = Some a -> nth_error h a = Some (Some it) ->
  lseg h (it_next it) (rem a (L1 ++ L2)) /\ (match it_next it with None => None | Some _ => q_last q end) = lasto (rem a (L1 ++ L2)) /\
  exists L, L1 ++ L2 = a :: L /\ rem a (L1 ++ L2) = L.
Proof.
  intros I Ef N. destruct (v_q _ _ _ _ _ _ _ _ _ I) as (R & La & _). pose proof (v_nodup _ _ _ _ _ _ _ _ _ I) as ND.
  apply nodup_app in ND. destruct ND as (ND & _). rewrite Ef in R. destruct (L1 ++ L2) as [|b L]; [discriminate|]. cbn in R.
  destruct R as (Eb & it' & N' & R). injection Eb as <-. rewrite N in N'. injection N' as <-.
  assert (E : rem a (a :: L) = L) by (apply (rem_mid a [] L); exact ND). rewrite E. split; auto. split; eauto. rewrite (lseg_hd _ _ _ R), La. apply lasto_pop.
Qed.

Lemma all_loop_fine h oq srcs nxt w k tr L1 L2 Ds :
  INV h oq srcs nxt (FAllLoop w :: k) tr L1 L2 Ds -> fine oq (all_loop (State h oq srcs nxt (FAllLoop w :: k) tr) w k).
Proof.
  intros I. unfold all_loop. flat. destruct oq as [q|]; [|right; auto]. flat. destruct (q_first q) as [a|] eqn:Ef.
  - destruct (first_some _ _ _ _ _ _ _ _ _ _ I Ef) as (_ & Ia & it & N). rewrite (get_ok _ _ _ N). flat.
    pose proof (first_done _ _ _ _ _ _ _ _ _ _ _ I Ef N) as Fd. destruct (it_completed it).
    + destruct Fd as (L & EL). destruct (pop_facts _ _ _ _ _ _ _ _ _ _ _ I Ef N) as (R & La & _).
      pose proof (v_frames _ _ _ _ _ _ _ _ _ I) as Vf; inversion Vf as [|? D ? Ds' Hf Hk]; subst. cbn in Hf. subst D.
      assert (Lg : legal tr (ECancel a)).
      { open I. destruct v_q0 as (_ & _ & En & _). cbn [app] in En. inversion En as [|? e ? r (it' & N' & Ee) En' El Er]; subst.
        destruct (act_cons _ _ _ v_act0 eq_refl) as ([|b|] & o' & Eo & Hm & _); cbn in Hm; try contradiction. cbn. right. exists (entry_of a it'), r, b, o'.
        repeat split; auto. rewrite Eo in v_scope0. cbn in v_scope0.
        assert (X : In a (map e_id b)) by (apply v_scope0; cbn; auto). apply in_map_iff in X. destruct X as (e' & Ei & X').
        assert (In (EAdd e') tr). { apply (before_added tr (OAll b)); auto. rewrite Eo. cbn. auto. }
        rewrite <- (added_unique tr e' (entry_of a it')); auto. }
      pose proof (INV_cancel h h q (set_ends q (it_next it) (match it_next it with None => None | Some _ => q_last q end)) srcs nxt _ k (FAllCb a w) tr tr a it _ _ _ Ds' I Ia N) as T.
      assert (I' : INV h (Some (set_ends q (it_next it) (match it_next it with None => None | Some _ => q_last q end))) srcs nxt (FAllCb a w :: k)
                (if it_destroy it then EDestroy a (it_data it) :: ECancel a :: tr else ECancel a :: tr) (rem a (a :: L)) (rem a L2) ([a] :: Ds')).
      { apply T; auto.
        - left. exists w. auto.
        - intros x ix _ X. exists ix. auto.
        - intros x X. reflexivity.
        - exists it. auto.
        - intros x ix X. exists ix. auto. }
      clear T. destruct (it_destroy it); flat.
      * eapply fine_ok. exact I'.
      * rewrite (release_ok _ _ _ N). flat. destruct (INV_release_all _ _ _ _ _ _ _ _ _ _ _ I') as (it' & Ds'' & _ & I''). eapply fine_ok. exact I''.
    + destruct Fd as (-> & _). eapply all_end_fine. exact I.
  - destruct (first_none _ _ _ _ _ _ _ _ _ I Ef) as (-> & ->). eapply all_end_fine. exact I.
Qed.

Lemma tag_first_end_fine h oq srcs nxt k tr a it tag L1 L2 Ds k0 :
  INV h oq srcs nxt (FTagFirstCb a tag :: k) tr L1 L2 Ds -> nth_error h a = Some (Some it) ->
  fine oq (tag_first_end (State (upd h a None) oq srcs nxt k0 tr) tag k).
Proof.
  intros I N. unfold tag_first_end. flat. destruct oq as [q|]; [|right; auto]. flat.
  destruct (clear_cases _ _ _ _ _ _ _ _ _ _ I (upd h a None) k0 _ eq_refl) as (tr1 & q' & srcs' & E & _ & Cs). rewrite E. flat.
  pose proof (v_frames _ _ _ _ _ _ _ _ _ I) as Vf; inversion Vf as [|? D ? Ds' Hf Hk]; subst.
  eapply fine_ok. eapply INV_finish; [exact I|right; exists a, tag; auto|exact Cs].
Qed.

(* removal of an item inside the list *)
Lemma lasto_app l l' : l' <> [] -> lasto (l ++ l') = lasto l'.
Proof. intros N. induction l as [|x l IH]; auto. cbn [app]. destruct (l ++ l') eqn:E; [destruct l; cbn in E; congruence|]. rewrite <- IH. reflexivity. Qed.
Lemma lseg_cut h h' pr b l2 ib : forall l0 p, lseg h p (l0 ++ pr :: b :: l2) -> nth_error h b = Some (Some ib) ->
  (forall x, In x l0 \/ In x l2 -> nth_error h' x = nth_error h x) ->
  (exists ip, nth_error h' pr = Some (Some ip) /\ it_next ip = it_next ib) -> lseg h' p (l0 ++ pr :: l2).
Proof.
  induction l0 as [|x l0 IH]; cbn [app]; intros p R N O (ip & Np & En).
  - destruct R as (-> & ir & Nr & (Er & ib' & N' & R)). cbn. split; auto. exists ip. split; auto. rewrite En. rewrite N in N'. injection N' as <-.
    eapply lseg_same; [|exact R]. intros x X. apply O. auto.
  - destruct R as (-> & ix & Nx & R). cbn. split; auto. exists ix. rewrite O by (cbn; auto). split; auto. apply IH; eauto.
    intros y Y. apply O. cbn. tauto.
Qed.
Lemma lseg_next h b ib l2 : forall l1 p, lseg h p (l1 ++ b :: l2) -> nth_error h b = Some (Some ib) -> lseg h (it_next ib) l2.
Proof.
  induction l1 as [|x l1 IH]; cbn [app]; intros p (-> & it & N & R) Nb.
  - rewrite N in Nb. injection Nb as <-. auto.
  - eapply IH; eauto.
Qed.

Lemma cancel_tag_fine h oq srcs nxt k tr L1 L2 Ds tag : client k -> INV h oq srcs nxt k tr L1 L2 Ds -> fine oq (cancel_tag (State h oq srcs nxt k tr) tag).
Proof.
  intros Cb I. unfold cancel_tag. flat. destruct oq as [q|]; [|right; auto]. flat.
  destruct (v_q _ _ _ _ _ _ _ _ _ I) as (R & La & En & _). pose proof (v_nodup _ _ _ _ _ _ _ _ _ I) as ND0.
  pose proof ND0 as ND. apply nodup_app in ND. destruct ND as (ND & NDs & NX). destruct (q_first q) as [a|] eqn:Ef.
  - destruct (first_some _ _ _ _ _ _ _ _ _ _ I Ef) as (_ & Ia & it & N). rewrite (get_ok _ _ _ N). flat.
    destruct (pop_facts _ _ _ _ _ _ _ _ _ _ _ I Ef N) as (R' & La' & L & EL & Er).
    assert (Ea : exists es, pending tr = entry_of a it :: es /\ Forall2 (is_entry h) L es).
    { rewrite EL in En. inversion En as [|? e ? es (it' & N' & Ee) En' E1 E2]; subst. rewrite N in N'. injection N' as <-. eauto. }
    destruct Ea as (es & Ep & Ees). destruct (Z.eqb_spec (it_tag it) tag) as [Et|Et].
    + (* the first one *)
      rewrite (put_ok _ _ _ _ N). flat. set (h1 := upd h a (Some (set_completed it))). set (q' := set_ends q (it_next it) (match it_next it with None => None | Some _ => q_last q end)).
      assert (N1 : nth_error h1 a = Some (Some (set_completed it))) by (eapply upd_here; eauto).
      assert (I' : INV h1 (Some q') srcs nxt (FTagFirstCb a tag :: k)
                (if it_destroy it then EDestroy a (it_data it) :: ECancel a :: ETag tag :: tr else ECancel a :: ETag tag :: tr) (rem a L1) (rem a L2) ([a] :: Ds)).
      { apply (INV_cancel h h1 q q' srcs nxt k k (FTagFirstCb a tag) tr (ETag tag :: tr) a it L1 L2 Ds Ds I Ia N); auto.
        - right. exists tag. repeat (split; auto).
        - left. exists tag, (active tr), [], (entry_of a it), es. cbn. repeat (split; auto).
        - eapply lseg_same; [|exact R']. apply same_upd. intros X. apply rem_in in X. tauto.
        - intros x ix X Nx. exists ix. unfold h1. rewrite nth_error_upd_ne; auto. apply rem_in in X. intros ->. tauto.
        - apply same_upd. intros X. exact (NX a Ia X).
        - exists (set_completed it). auto.
        - apply upd_length.
        - intros x ix X. destruct (Nat.eq_dec a x) as [<-|Nx]; [|unfold h1 in X; rewrite nth_error_upd_ne in X by auto; eauto].
          exists it. split; auto. rewrite N1 in X. injection X as <-. reflexivity. }
      destruct (it_destroy it); flat.
      * eapply fine_ok. exact I'.
      * rewrite (release_ok _ _ _ N1). flat. eapply fine_weaken. eapply tag_first_end_fine; eauto.
    + (* one of the others *)
      rewrite EL in R. cbn in R. destruct R as (_ & it' & N' & R). rewrite N in N'. injection N' as <-.
      assert (Len : (length L <= length h)%nat).
      { apply nodup_bound; [rewrite EL in ND; inversion ND; auto|]. intros x X. apply alive_lt. eapply lseg_alive; [exact R|exact X]. }
      destruct (find_tag_ok tag L (length h) h a (it_next it) es R Ees Len) as [(Ff & Nt)|(pr & b & l1 & l2 & es1 & eb & es2 & Ff & El & Ees' & Ll & Eib & Etb & Nt & l0 & Epr)];
        rewrite Ff; flat.
      * change (fine (Some q) (Ok (State h (Some q) srcs nxt k (ETagEnd tag false :: ETag tag :: tr)))). eapply fine_ok. eapply INV_tag_none; [exact I|]. rewrite Ep. intros e [<-|X]; auto.
      * assert (EL0 : L1 ++ L2 = l0 ++ pr :: b :: l2).
        { rewrite EL, El. change (a :: l1 ++ b :: l2) with ((a :: l1) ++ b :: l2). rewrite Epr, <- app_assoc. reflexivity. }
        assert (Ib : In b (L1 ++ L2)). { rewrite EL, El. right. apply in_app_iff. cbn. auto. }
        assert (Ipr : In pr (L1 ++ L2)). { rewrite EL0. apply in_app_iff. cbn. auto. }
        destruct (v_q _ _ _ _ _ _ _ _ _ I) as (R0 & _). rewrite EL0 in R0, ND, La.
        assert (RmE : rem b (L1 ++ L2) = l0 ++ pr :: l2).
        { rewrite EL0. change (l0 ++ pr :: b :: l2) with (l0 ++ [pr] ++ b :: l2) in *. rewrite app_assoc in *. rewrite rem_mid by auto. rewrite <- app_assoc. reflexivity. }
        assert (Alb : alive h b). { eapply lseg_alive; [exact R0|]. apply in_app_iff. cbn. auto. }
        assert (Alp : alive h pr). { eapply lseg_alive; [exact R0|]. apply in_app_iff. cbn. auto. }
        destruct Alb as (ib & Nb). destruct Alp as (ip & Np). rewrite (get_ok _ _ _ Nb). flat. rewrite (get_ok _ _ _ Np). flat. rewrite (put_ok _ _ _ _ Np). flat.
        assert (Nbp : b <> pr).
        { intros ->. apply NoDup_remove_2 in ND. apply ND. apply in_app_iff. cbn. auto. }
        set (h1 := upd h pr (Some (set_next ip (it_next ib)))).
        assert (Nb1 : nth_error h1 b = Some (Some ib)) by (unfold h1; rewrite nth_error_upd_ne; auto).
        rewrite (put_ok _ _ _ _ Nb1). set (h2 := upd h1 b (Some (set_completed ib))).
        set (q' := match it_next ib with Some _ => q | None => set_ends q (q_first q) (Some pr) end).
        assert (Nb2 : nth_error h2 b = Some (Some (set_completed ib))) by (eapply upd_here; eauto).
        assert (Np2 : nth_error h2 pr = Some (Some (set_next ip (it_next ib)))). { unfold h2. rewrite nth_error_upd_ne by auto. eapply upd_here. eauto. }
        assert (O2 : forall x, x <> b -> x <> pr -> nth_error h2 x = nth_error h x). { intros x X Y. unfold h2, h1. rewrite !nth_error_upd_ne; auto. }
        assert (Ieb : eb = entry_of b ib).
        { apply (added_unique tr); [apply (v_good _ _ _ _ _ _ _ _ _ I)| |apply (v_items _ _ _ _ _ _ _ _ _ I); auto|auto].
          apply pending_added. rewrite Ep, Ees'. right. apply in_app_iff. cbn. auto. }
        assert (NDx : forall x, In x l0 \/ In x l2 -> x <> b /\ x <> pr).
        { intros x X. apply NoDup_remove in ND. destruct ND as (ND & NP). apply NoDup_remove in ND. destruct ND as (_ & NB). rewrite in_app_iff in NP, NB. cbn in NP.
          split; intros ->; tauto. }
        assert (I' : INV h2 (Some q') srcs nxt (FTagMidCb b tag :: k)
                (if it_destroy ib then EDestroy b (it_data ib) :: ECancel b :: ETag tag :: tr else ECancel b :: ETag tag :: tr) (rem b L1) (rem b L2) ([b] :: Ds)).
        { apply (INV_cancel h h2 q q' srcs nxt k k (FTagMidCb b tag) tr (ETag tag :: tr) b ib L1 L2 Ds Ds I Ib Nb).
          - right. exists tag. repeat (split; auto). right. split; auto. rewrite RmE. destruct l0; discriminate.
          - left. exists tag, (active tr), (entry_of a it :: es1), eb, es2. cbn. split; auto. split; [rewrite Ep, Ees'; reflexivity|]. repeat (split; auto).
            intros x [<-|X]; auto.
          - rewrite RmE. replace (q_first q') with (q_first q) by (unfold q'; destruct (it_next ib); reflexivity).
            eapply lseg_cut; [exact R0|exact Nb| |].
            + intros x X. destruct (NDx x X). apply O2; auto.
            + exists (set_next ip (it_next ib)). auto.
          - rewrite RmE. assert (R2 : lseg h (it_next ib) l2). { rewrite El in R. eapply lseg_next; eauto. }
            unfold q'. pose proof (lseg_hd _ _ _ R2) as Eh. destruct l2 as [|c l2]; cbn in Eh; rewrite Eh; cbn [set_ends q_last].
            + symmetry. apply lasto_snoc.
            + rewrite La. rewrite !lasto_app by discriminate. reflexivity.
          - unfold q'. destruct (it_next ib); reflexivity.
          - intros x ix X Nx. rewrite RmE in X. apply in_app_iff in X. cbn in X.
            destruct (Nat.eq_dec x pr) as [->|Nxp].
            + exists (set_next ip (it_next ib)). assert (ix = ip) as -> by congruence. auto.
            + exists ix. rewrite O2; auto. apply NDx. intuition congruence.
          - intros x X. apply O2; intros ->; [exact (NX b Ib X)|exact (NX pr Ipr X)].
          - exists (set_completed ib). auto.
          - unfold h2, h1. rewrite !upd_length. reflexivity.
          - intros x ix X. destruct (Nat.eq_dec x b) as [->|Nxb]; [rewrite Nb2 in X; injection X as <-; exists ib; auto|].
            destruct (Nat.eq_dec x pr) as [->|Nxp]; [rewrite Np2 in X; injection X as <-; exists ip; auto|]. rewrite O2 in X by auto. eauto. }
        cbn [bind]. match goal with |- context [match it_next ib with Some _ => ?x | None => ?y end] =>
          replace (match it_next ib with Some _ => x | None => y end) with (State h1 (Some q') srcs nxt k (ETag tag :: tr))
            by (unfold q'; rewrite Ef; destruct (it_next ib); reflexivity) end. flat. destruct (it_destroy ib); flat.
        -- eapply fine_ok. exact I'.
        -- rewrite (release_ok _ _ _ Nb2). flat. eapply fine_ok. eapply INV_finish; [exact I'|right; exists b, tag; auto|left]. repeat (split; auto). right. eauto.
  - destruct (first_none _ _ _ _ _ _ _ _ _ I Ef) as (-> & ->). change (fine (Some q) (Ok (State h (Some q) srcs nxt k (ETagEnd tag false :: ETag tag :: tr)))). eapply fine_ok. eapply INV_tag_none; [exact I|]. inversion En as [X|]. intros e [].
Qed.

Lemma add_fine h oq srcs nxt k tr L1 L2 Ds tag data run destroy : client k -> INV h oq srcs nxt k tr L1 L2 Ds ->
  fine oq (add (State h oq srcs nxt k tr) tag data run destroy).
Proof.
  intros Cb I. unfold add. flat. destruct oq as [q|]; [|right; auto]. flat.
  destruct (INV_add _ _ _ _ _ _ _ _ _ tag data run destroy I Cb) as (h' & Eh & I'). destruct (q_last q) as [l|] eqn:El.
  - destruct Eh as (it & N & Eh). rewrite (get_ok _ _ _ N). flat. rewrite (put_ok _ _ _ _ N). flat. cbn [set_ends q_source]. rewrite <- Eh.
    destruct (Nat.eqb (q_source q) 0); unfold idle_add; flat; cbn [set_source set_ends q_refs q_source q_first q_last]; eapply fine_ok; exact I'.
  - subst h'. flat. cbn [set_ends q_source]. destruct (Nat.eqb (q_source q) 0); unfold idle_add; flat; cbn [set_source set_ends q_refs q_source q_first q_last]; eapply fine_ok; exact I'.
Qed.

Lemma do_call_fine h oq srcs nxt k tr L1 L2 Ds c : client k -> INV h oq srcs nxt k tr L1 L2 Ds -> fine oq (do_call (State h oq srcs nxt k tr) c).
Proof.
  intros Cb I. destruct c; unfold do_call; flat.
  - eapply add_fine; eauto.
  - destruct oq as [q|]; [|right; auto]. flat. destruct (v_q _ _ _ _ _ _ _ _ _ I) as (R & La & En & _). pose proof (v_nodup _ _ _ _ _ _ _ _ _ I) as ND.
    apply nodup_app in ND. destruct ND as (ND & _).
    assert (Len : (length (L1 ++ L2) <= length h)%nat) by (apply nodup_bound; auto; intros x X; apply alive_lt; eapply lseg_alive; eauto).
    destruct (has_tag_ok tag _ (length h) h _ _ R En Len) as (b & Eb & Hb). rewrite Eb. flat. eapply fine_ok. apply INV_neutral; [reflexivity|exact Hb|exact I].
  - eapply cancel_tag_fine; eauto.
  - eapply cancel_all_fine; eauto.
  - destruct oq as [q|]; [|right; auto]. flat. eapply fine_ok. apply INV_neutral; [reflexivity|exact Logic.I|]. eapply INV_refs. exact I.
  - eapply drop_fine; eauto. apply INV_neutral; [reflexivity|exact Logic.I|exact I].
  - eapply cancel_all_fine; eauto. apply INV_neutral; [reflexivity|exact Logic.I|exact I].
Qed.

Lemma resume_fine h oq srcs nxt f k tr L1 L2 Ds : is_cb f = true -> INV h oq srcs nxt (f :: k) tr L1 L2 Ds -> fine oq (resume (State h oq srcs nxt (f :: k) tr) f k).
Proof.
  intros Cf I0. assert (I : INV h oq srcs nxt (f :: k) (EReturn :: tr) L1 L2 Ds) by (apply INV_neutral; [reflexivity|exact Logic.I|exact I0]). clear I0.
  unfold resume. flat. destruct f; try discriminate.
  - eapply after_run_fine; eauto.
  - eapply fine_ok. eapply INV_back. exact I.
  - destruct (INV_release_all _ _ _ _ _ _ _ _ _ _ _ I) as (it & Ds' & N & I'). rewrite (release_ok _ _ _ N). flat. eapply fine_ok. exact I'.
  - pose proof (v_frames _ _ _ _ _ _ _ _ _ I) as Vf. inversion Vf as [|? D ? Ds' Hf Hk]; subst. destruct Hf as (_ & it & N). rewrite (release_ok _ _ _ N). flat.
    eapply tag_first_end_fine; eauto.
  - pose proof (v_frames _ _ _ _ _ _ _ _ _ I) as Vf. inversion Vf as [|? D ? Ds' Hf Hk]; subst. destruct Hf as (Ed & it & N). rewrite (release_ok _ _ _ N). flat.
    eapply fine_ok. eapply INV_finish; [exact I|right; exists a, tag; auto|left]. repeat (split; auto). right. eauto.
  - destruct (INV_unnull _ _ _ _ _ _ _ _ _ I) as (Ds' & I'). eapply fine_ok. exact I'.
Qed.

Theorem step_fine s a : inv s -> (exists s', step s a = Ok s' /\ inv s') \/ (step s a = Fail UseAfterFree /\ s_queue s = None).
Proof.
  destruct s as [h oq srcs nxt k tr]. intros (L1 & L2 & Ds & I). cbn [s_heap s_queue s_srcs s_next s_stack s_trace] in *.
  assert (Same : (exists s', Ok (State h oq srcs nxt k tr) = Ok s' /\ inv s')) by (eexists; split; [reflexivity|exists L1, L2, Ds; exact I]).
  change (fine oq (step (State h oq srcs nxt k tr) a)).
  assert (Cl : (match k with f :: _ => is_cb f | [] => true end) = true -> client k).
  { intros X. pose proof (v_code _ _ _ _ _ _ _ _ _ I) as V. destruct k; constructor; auto. }
  assert (Cs : (match k with f :: _ => is_cb f | [] => true end) = true -> fine oq (match a with
      | AStep => Ok (State h oq srcs nxt k tr)
      | ACall c => do_call (State h oq srcs nxt k tr) c
      | ANull c => null_call (State h oq srcs nxt k tr) c
      | AReturn => match k with [] => Ok (State h oq srcs nxt k tr) | f :: k' => resume (State h oq srcs nxt k tr) f k' end
      | ADispatch sid => dispatch (State h oq srcs nxt k tr) sid end)).
  { intros X. destruct a.
    - left. exact Same.
    - eapply do_call_fine; eauto.
    - unfold null_call. destruct c as [? ? ? []| | | | | |]; try (left; exact Same). flat. eapply fine_ok. apply INV_null; [exact I|apply Cl; exact X].
    - destruct k; [left; exact Same|]. eapply resume_fine; eauto.
    - eapply dispatch_fine; eauto. }
  unfold step. cbn [s_stack]. destruct k as [|[ | | | | | | |] k]; try (apply Cs; reflexivity).
  - destruct a; try (left; exact Same). eapply run_loop_fine; eauto.
  - destruct a; try (left; exact Same). eapply all_loop_fine; eauto.
Qed.

Lemma start_inv : inv start.
Proof.
  exists [], [], []. cbn. constructor; cbn; auto; try (constructor; auto; fail); try (intros; contradiction).
  - split; [auto|]. split; [auto|]. split; [constructor|]. split; [left; auto|]. split; [congruence|auto].
  - intros a it X. destruct a; discriminate.
  - intros a [].
  - split; [lia|]. intros x [].
  - intros _ a it X. destruct a; discriminate.
Qed.
Theorem run_inv l s s' : inv s -> run s l = Ok s' -> inv s'.
Proof.
  revert s. induction l as [|a l IH]; cbn; intros s I E; [congruence|]. destruct (step_fine s a I) as [(s1 & E1 & I1)|(E1 & _)]; rewrite E1 in E; [|discriminate]. cbn in E. eauto.
Qed.
