(* A pass whose callbacks return at once runs everything that is waiting *)
From Verif Require Import Base IdleQueueModel IdleQueueSpec IdleQueueProofs IdleQueueInv IdleQueueStep.

Ltac flat_in H := cbn [bind the_queue s_heap s_queue s_srcs s_next s_stack s_trace set_heap set_queue set_stack emit pop] in H.

Lemma head_facts s q e es : inv s -> s_queue s = Some q -> pending (s_trace s) = e :: es ->
  exists it, q_first q = Some (e_id e) /\ nth_error (s_heap s) (e_id e) = Some (Some it) /\ e = entry_of (e_id e) it.
Proof.
  intros (L1 & L2 & Ds & I) Eq Ep. open I. rewrite Eq in v_q0. destruct v_q0 as (Ls & _ & Fe & _). rewrite Ep in Fe.
  inversion Fe as [|a e' L es' (it & N & E) F' E1 E2]. subst. rewrite <- E1 in Ls. exists it. cbn. inversion Ls; subst. auto.
Qed.
Lemma completed_in s q e o x it : inv s -> s_queue s = Some q -> In e (pending (s_trace s)) -> active (s_trace s) = x :: o -> In e (before x) ->
  nth_error (s_heap s) (e_id e) = Some (Some it) -> it_completed it = true.
Proof.
  intros (L1 & L2 & Ds & I) Eq Ip Ea Ib N. open I. rewrite Eq in v_q0. destruct v_q0 as (Ls & _ & Fe & _).
  assert (I1 : In (e_id e) L1). { apply (v_snap0 x e); auto. { rewrite Ea. cbn; auto. } rewrite <- (entries_ids _ _ _ Fe). apply in_map. auto. }
  destruct v_done0 as (F & _). eapply flag_get; eauto.
Qed.

Lemma take_one s q sid done k e es b o : inv s -> s_queue s = Some q -> s_stack s = FRunLoop sid done :: k -> pending (s_trace s) = e :: es ->
  active (s_trace s) = OPass sid b :: o -> In e b ->
  exists l s' done', forallb passive l = true /\ run s l = Ok s' /\ s_trace s' = rev (pass_events e) ++ s_trace s /\
    s_stack s' = FRunLoop sid done' :: k /\ (exists q', s_queue s' = Some q') /\ s_srcs s' = s_srcs s.
Proof.
  intros Iv Eq Ek Ep Ea Ib. destruct (head_facts _ _ _ _ Iv Eq Ep) as (it & Ef & N & Ee).
  assert (C : it_completed it = true) by (eapply (completed_in s q e); eauto; rewrite Ep; cbn; auto).
  destruct s as [h oq srcs nxt k0 tr]. flat. cbn in Eq, Ek, Ep, Ea, N. subst oq k0. set (a := e_id e) in *. clearbody a. subst e.
  assert (N' : nth_error (upd h a (Some (set_next it done))) a = Some (Some (set_next it done))).
  { apply nth_error_upd_eq. apply nth_error_Some. congruence. }
  unfold pass_events, entry_of. cbn [e_id e_data e_run e_destroy].
  destruct (it_run it) eqn:Er; destruct (it_destroy it) eqn:Edd.
  1: exists [AStep; AReturn; AReturn]. 2: exists [AStep; AReturn]. 3: exists [AStep; AReturn]. 4: exists [AStep].
  all: eexists _, (Some a); split; [reflexivity|]; cbn [run bind]; unfold step; flat; unfold run_loop; flat; rewrite Ef; rewrite (get_ok _ _ _ N); flat;
    rewrite C; flat; rewrite (put_ok _ _ _ _ N); flat; rewrite Er; flat; cbn [run bind]; unfold step; flat; unfold resume, after_run; flat;
    rewrite ?(get_ok _ _ _ N'); flat; cbn [set_next it_destroy it_data]; rewrite Edd; flat; unfold step, resume; flat; (split; [reflexivity|]); cbn; eauto.
Qed.
Lemma take_all es : forall s q sid done k b o, inv s -> s_queue s = Some q -> s_stack s = FRunLoop sid done :: k -> pending (s_trace s) = es ->
  active (s_trace s) = OPass sid b :: o -> incl es b ->
  exists l s' done', forallb passive l = true /\ run s l = Ok s' /\ s_trace s' = rev (concat (map pass_events es)) ++ s_trace s /\
    s_stack s' = FRunLoop sid done' :: k /\ (exists q', s_queue s' = Some q') /\ s_srcs s' = s_srcs s.
Proof.
  induction es as [|e es IH]; intros s q sid done k b o Iv Eq Ek Ep Ea Ib.
  - exists [], s, done. repeat split; eauto.
  - destruct (take_one s q sid done k e es b o) as (l & s1 & d1 & Pl & R1 & T1 & K1 & (q1 & Q1) & S1); auto. { apply Ib; cbn; auto. }
    assert (Nd : NoDup (map e_id (e :: es))). { rewrite <- Ep. apply pending_nodup. destruct Iv as (? & ? & ? & []). auto. }
    assert (P1 : pending (s_trace s1) = es).
    { rewrite T1. unfold pass_events. destruct (e_run e), (e_destroy e); cbn -[filter]; rewrite Ep; apply (filter_mid [] e es Nd). }
    assert (A1 : active (s_trace s1) = OPass sid b :: o).
    { rewrite T1. unfold pass_events. destruct (e_run e), (e_destroy e); cbn; auto. }
    destruct (IH s1 q1 sid d1 k b o) as (l2 & s2 & d2 & Pl2 & R2 & T2 & K2 & Q2 & S2); auto. { eapply run_inv; eauto. } { intros x I; apply Ib; cbn; auto. }
    exists (l ++ l2), s2, d2. split; [rewrite forallb_app, Pl, Pl2; reflexivity|]. split.
    { clear - R1 R2. revert s R1. induction l as [|x l IH]; cbn; intros s R1; [congruence|]. destruct (step s x); cbn in *; [auto|discriminate]. }
    split; [|repeat split; auto; congruence]. rewrite T2, T1. cbn [map concat]. rewrite rev_app_distr, app_assoc. reflexivity.
Qed.

Lemma run_app l l' s s1 : run s l = Ok s1 -> run s (l ++ l') = run s1 l'.
Proof. revert s. induction l as [|x l IH]; cbn; intros s R; [congruence|]. destruct (step s x); cbn in *; [auto|discriminate]. Qed.

Lemma pass_all s q : inv s -> s_queue s = Some q -> s_stack s = [] -> pending (s_trace s) <> [] ->
  exists sid l s', sources (s_trace s) = [sid] /\ forallb passive l = true /\ run s (ADispatch sid :: l) = Ok s' /\
    s_trace s' = EPassEnd sid false :: rev (concat (map pass_events (pending (s_trace s)))) ++ EPass sid :: s_trace s /\ s_stack s' = [] /\ s_srcs s' = [].
Proof.
  intros Iv Eq Ek Np. pose proof Iv as (L1 & L2 & Ds & I). open I. rewrite Eq in v_q0. destruct v_q0 as (Ls & _ & Fe & So & Sn & _).
  assert (Ln : L1 ++ L2 <> []). { intros E. rewrite E in Fe. inversion Fe. congruence. }
  destruct So as [(S0 & _)|(S0 & b & Es & Hb)]; [destruct (Sn Ln S0)|]. set (sid := q_source q) in *.
  assert (b = false) as ->. { destruct b; auto. destruct (Hb eq_refl) as (f & If & _). rewrite Ek in If. contradiction. }
  assert (Src : sources (s_trace s) = [sid]). { rewrite <- v_sources0, Es. reflexivity. }
  destruct (step_fine s (ADispatch sid) Iv) as [(s1 & E1 & Iv1)|(_ & Nq)]; [|congruence].
  pose proof E1 as E1'. unfold step in E1'. rewrite Ek in E1'. unfold dispatch in E1'. rewrite Es in E1'. cbn [existsb fst snd] in E1'. rewrite Nat.eqb_refl in E1'. cbn [andb orb negb] in E1'.
  cbn [map fst snd] in E1'. rewrite Nat.eqb_refl in E1'. flat_in E1'. rewrite Eq in E1'. flat_in E1'.
  destruct (mark (length (s_heap s)) (s_heap s) (q_first q)) as [h1|] eqn:Em; [|discriminate]. cbn [bind] in E1'. injection E1' as E1'.
  assert (T1 : s_trace s1 = EPass sid :: s_trace s) by (rewrite <- E1'; reflexivity).
  assert (A1 : active (s_trace s1) = OPass sid (pending (s_trace s)) :: active (s_trace s)) by (rewrite T1; reflexivity).
  destruct (take_all (pending (s_trace s)) s1 q sid None [] (pending (s_trace s)) (active (s_trace s))) as (l & s2 & d2 & Pl & R2 & T2 & K2 & (q2 & Q2) & S2); auto.
  { rewrite <- E1'. reflexivity. } { rewrite <- E1'. cbn. rewrite Ek. reflexivity. } { rewrite T1. reflexivity. } { intros x; auto. }
  assert (Iv2 : inv s2) by exact (run_inv _ _ _ Iv1 R2).
  assert (P2 : pending (s_trace s2) = []).
  { rewrite T2, T1. pose proof (pending_nodup _ v_good0) as Nd. clear - Nd.
    assert (G : forall es t, NoDup (map e_id es) -> pending t = es -> pending (rev (concat (map pass_events es)) ++ t) = []).
    { induction es as [|e es IH]; cbn [map concat]; intros t Nd0 Ep; auto. cbn [map] in Nd0. rewrite rev_app_distr, <- app_assoc. apply IH.
      - cbn in Nd0. now inversion Nd0.
      - unfold pass_events. destruct (e_run e), (e_destroy e); cbn -[filter]; rewrite Ep; apply (filter_mid [] e es Nd0). }
    apply G; auto. }
  assert (Ef2 : q_first q2 = None).
  { pose proof Iv2 as (M1 & M2 & Es2 & I2). pose proof (v_q _ _ _ _ _ _ _ _ _ I2) as V. rewrite Q2, P2 in V. destruct V as (Ls2 & _ & Fe2 & _).
    inversion Fe2 as [E0|]. rewrite <- E0 in Ls2. inversion Ls2; auto. }
  destruct (step_fine s2 AStep Iv2) as [(s3 & E3 & Iv3)|(_ & Nq)]; [|congruence].
  exists sid, (l ++ [AStep]), s3. split; [auto|]. split; [rewrite forallb_app, Pl; reflexivity|]. split.
  { cbn [run]. rewrite E1. cbn [bind]. rewrite (run_app _ _ _ _ R2). cbn [run]. rewrite E3. reflexivity. }
  unfold step in E3. rewrite K2 in E3. unfold run_loop, the_queue in E3. rewrite Q2 in E3. cbn [bind] in E3. rewrite Ef2 in E3. unfold run_end in E3.
  destruct (free_chain (length (s_heap s2)) (s_heap s2) d2) as [h3|]; [|discriminate]. cbn [bind] in E3. unfold the_queue in E3. cbn [set_heap s_queue] in E3. rewrite Q2 in E3. cbn [bind] in E3. rewrite Ef2 in E3. injection E3 as <-.
  cbn [s_trace s_stack s_srcs emit]. repeat split; auto.
  - rewrite T2, T1. reflexivity.
  - rewrite S2, <- E1'. cbn. rewrite Nat.eqb_refl. reflexivity.
Qed.
