(* Steps as sequences of small changes, for invariants which are about a part of the state only *)
From Verif Require Import Base InotifyModel InotifySpec InotifyParse InotifyProofs InotifyProofs2 InotifyProofs3.

Definition plain (e : event) : bool :=
  match e with EInit _ _ | ENew _ _ _ _ | EDestroy _ | EStop _ _ _ | EGoneInst _ | EClose _ _ | EBadClose _ | EBadRemove _ => false | _ => true end.
Definition fixed (f : frame) : bool := match f with FClose _ => false | _ => true end.
Definition keeps (k k' : list frame) : Prop := forall i, In (FClose i) k' <-> In (FClose i) k.

(* a is the action the changes are a part of, s0 the state in the beginning *)
Inductive micro (a : action) (s0 s : state) : state -> Prop :=
| mi_inst i q q' : live (s_insts s) i q -> i_fd q' = i_fd q -> i_src q' = i_src q -> micro a s0 s (set_insts s (upd (s_insts s) i (Some q')))
| mi_deaf i q q' : ~ sound a -> live (s_insts s) i q -> i_fd q' = i_fd q -> micro a s0 s (set_insts s (upd (s_insts s) i (Some q')))
| mi_watch w x x' : live (s_watches s) w x -> w_wd x' = w_wd x -> w_inst x' = w_inst x -> w_refs x' <= w_refs x \/ 1 <= w_refs x -> micro a s0 s (set_watches s (upd (s_watches s) w (Some x')))
| mi_emit e : plain e = true -> micro a s0 s (emit s e)
| mi_ctl v l n m k : (s_nsrc s <= n)%nat -> keeps (s_stack s) k -> micro a s0 s (State (s_fds s) (s_insts s) v l n (s_watches s) m k (s_trace s))
| mi_init : (forall i q, ~ live (s_insts s) i q) -> (forall i, ~ In (FClose i) (s_stack s)) ->
    micro a s0 s (emit (set_insts (set_fds s (open_file (s_fds s) (IFile (KFile 0 [])))) (s_insts s ++ [Some (Inst 1 (lowest (s_fds s)) [] (s_nsrc s) (repeat None 272))]))
      (EInit (length (s_insts s)) (lowest (s_fds s))))
| mi_new i q n l wd : live (s_insts s) i q -> a = ACall (CNew (Some n)) -> kadd (s_fds s) (i_fd q) n = Some (l, wd) -> 0 <= wd ->
    (forall w j m v, In (ENew w j m v) (s_trace s) -> In (ENew w j m v) (s_trace s0)) -> (forall e, In e (s_trace s0) -> In e (s_trace s)) ->
    micro a s0 s (emit (set_watches (set_fds s l) (s_watches s ++ [Some (Watch 1 i wd [])])) (ENew (length (s_watches s)) i n wd))
| mi_stop w x q : live (s_watches s) w x -> 0 <= w_wd x -> live (s_insts s) (w_inst x) q -> In (EDestroy w) (s_trace s) \/ w_refs x <= 0 ->
    micro a s0 s (emit (set_watches (set_fds s (krm (s_fds s) (i_fd q) (w_wd x))) (upd (s_watches s) w (Some (set_wd x (-1))))) (EStop w (w_inst x) (w_wd x)))
| mi_free w x : live (s_watches s) w x -> w_wd x < 0 -> micro a s0 s (set_watches s (upd (s_watches s) w None))
| mi_close i q k : live (s_insts s) i q -> live (s_fds s) (i_fd q) (IFile k) ->
    micro a s0 s (set_stack (emit (set_fds s (upd (s_fds s) (i_fd q) None)) (EClose (i_fd q) (IFile k))) (FClose i :: s_stack s))
| mi_gone i q k : live (s_insts s) i q -> s_stack s = FClose i :: k -> (forall j, ~ In (FClose j) k) ->
    micro a s0 s (emit (set_insts (close (set_stack s k) (i_fd q)) (upd (s_insts s) i None)) (EGoneInst i))
| mi_drop fd n : a = ADrop fd n -> micro a s0 s (set_fds s (kdrop (s_fds s) fd n))
| mi_open : a = AOpen -> s = s0 -> micro a s0 s (set_fds s (open_file (s_fds s) OFile))
| mi_shut fd : live (s_fds s) fd OFile -> micro a s0 s (set_fds s (upd (s_fds s) fd None))
| mi_destroy w : a = ACall (CDestroy w) -> micro a s0 s (emit s (EDestroy w)).

Inductive micros (a : action) (s0 : state) : state -> state -> Prop :=
| ms_nil s : micros a s0 s s
| ms_cons s t u : micro a s0 s t -> micros a s0 t u -> micros a s0 s u.
Lemma ms_one a s0 s t : micro a s0 s t -> micros a s0 s t.
Proof. intros H. eapply ms_cons; [exact H|constructor]. Qed.
Lemma ms_trans a s0 s t u : micros a s0 s t -> micros a s0 t u -> micros a s0 s u.
Proof. intros H K. induction H; auto. eapply ms_cons; eauto. Qed.

(* control only *)
Lemma ms_ctl a s0 s t : s_fds t = s_fds s -> s_insts t = s_insts s -> s_watches t = s_watches s -> s_trace t = s_trace s ->
  (s_nsrc s <= s_nsrc t)%nat -> keeps (s_stack s) (s_stack t) -> micros a s0 s t.
Proof.
  intros E1 E2 E3 E4 H K. destruct t as [fds insts v l n ws m k tr]. cbn in *. subst. apply ms_one, mi_ctl; auto.
Qed.

Lemma keeps_refl k : keeps k k.
Proof. intros i. reflexivity. Qed.
Ltac ctl := cbn; try reflexivity; try lia; try apply keeps_refl.

Definition fdok (s : state) : Prop := forall i q, live (s_insts s) i q -> kernel_ok (s_fds s) (i_fd q) /\ (i_src q <> O -> source s (i_src q) <> None).

Lemma ms_remove_source a s0 s sid : source s sid <> None -> micros a s0 s (remove_source s sid).
Proof.
  intros N. unfold remove_source. destruct (source s sid).
  - eapply ms_trans; [|apply ms_one, mi_emit; reflexivity]. apply ms_ctl; ctl.
  - destruct N. reflexivity.
Qed.
Lemma remove_source_same s sid : s_fds (remove_source s sid) = s_fds s /\ s_insts (remove_source s sid) = s_insts s /\ s_stack (remove_source s sid) = s_stack s /\
  s_watches (remove_source s sid) = s_watches s.
Proof. unfold remove_source. destruct (source s sid); auto. Qed.

Lemma get_inv {A} (h : list (option A)) i x : get h i = Ok x -> live h i x.
Proof. unfold get, live. destruct (nth_error h i) as [[y|]|]; try discriminate. congruence. Qed.

Lemma ms_unref a s0 s i s' : fdok s -> unref_inst s i = Ok s' -> micros a s0 s s'.
Proof.
  intros F H. unfold unref_inst in H. destruct (get (s_insts s) i) as [q|] eqn:G; [|discriminate]. apply get_inv in G. cbn [bind] in H.
  rewrite (put_inst_live _ _ _ _ G) in H. cbn [bind] in H. set (s1 := set_insts s (upd (s_insts s) i (Some (set_refs q (i_refs q - 1))))) in *.
  assert (M1 : micros a s0 s s1) by (eapply ms_one, mi_inst; eauto). eapply ms_trans; [exact M1|]. destruct (i_refs q - 1 =? 0); [|injection H as <-; constructor].
  set (s2 := if Nat.eqb (i_src q) 0 then s1 else remove_source s1 (i_src q)) in *.
  assert (M2 : micros a s0 s1 s2) by (unfold s2; destruct (Nat.eqb_spec (i_src q) 0); [constructor|apply ms_remove_source; apply (F _ _ G); auto]).
  assert (E2 : s_fds s2 = s_fds s /\ s_insts s2 = s_insts s1 /\ s_stack s2 = s_stack s).
  { unfold s2. destruct (Nat.eqb (i_src q) 0); [auto|]. destruct (remove_source_same s1 (i_src q)) as (? & ? & ? & ?). auto. }
  destruct E2 as (E2 & E3 & E4). eapply ms_trans; [exact M2|]. injection H as <-.
  destruct (F _ _ G) as ((k & L & _) & _). unfold close. rewrite E2. unfold live in L. rewrite L.
  change (s_stack (emit (set_fds s2 (upd (s_fds s) (i_fd q) None)) (EClose (i_fd q) (IFile k)))) with (s_stack s2).
  rewrite <- E2. apply ms_one. apply (mi_close a s0 s2 i (set_refs q (i_refs q - 1)) k).
  - rewrite E3. eapply live_upd_eq, G.
  - cbn. unfold live. rewrite E2. exact L.
Qed.

Lemma stop_micro a s0 s w s' : fdok s -> (In (EDestroy w) (s_trace s) \/ forall x, live (s_watches s) w x -> w_refs x <= 0) -> watch_stop s w = Ok s' -> micros a s0 s s' /\ fdok s'.
Proof.
  intros F DR H. unfold watch_stop in H. destruct (get (s_watches s) w) as [x|] eqn:G; [|discriminate]. apply get_inv in G. cbn [bind] in H.
  assert (DX : In (EDestroy w) (s_trace s) \/ w_refs x <= 0) by (destruct DR; auto).
  destruct (Z.geb_spec (w_wd x) 0); [|injection H as <-; split; [constructor|auto]].
  destruct (get (s_insts s) (w_inst x)) as [q|] eqn:GI; [|discriminate]. apply get_inv in GI. cbn [bind] in H.
  rewrite (put_inst_live _ _ _ _ GI) in H. cbn [bind] in H. erewrite put_watch_live in H by exact G. cbn [bind] in H. injection H as <-. split.
  - eapply ms_cons; [eapply mi_inst; [exact GI| |]|].
    3: { apply ms_one. exact (mi_stop a s0 (set_insts s (upd (s_insts s) (w_inst x) (Some (set_table q (t_remove (i_watches q) (w_wd x)))))) w x
           (set_table q (t_remove (i_watches q) (w_wd x))) G ltac:(lia) (live_upd_eq _ _ _ _ GI) DX). }
    all: reflexivity.
  - intros j p Hp. cbn in *. assert (X : exists p', live (s_insts s) j p' /\ i_fd p = i_fd p' /\ i_src p = i_src p').
    { apply live_upd in Hp. destruct Hp as [[<- Hp]|[_ Hp]]; [injection Hp as <-; exists q|exists p]; auto. }
    destruct X as (p' & Lp & -> & ->). destruct (F _ _ Lp) as [F1 F2]. split; [apply krm_ok, F1|exact F2].
Qed.

Lemma stop_after s w s' : watch_stop s w = Ok s' -> exists x, live (s_watches s') w x /\ w_wd x < 0.
Proof.
  intros H. unfold watch_stop in H. destruct (get (s_watches s) w) as [x|] eqn:G; [|discriminate]. apply get_inv in G. cbn [bind] in H.
  destruct (Z.geb_spec (w_wd x) 0); [|injection H as <-; exists x; split; [auto|lia]].
  destruct (get (s_insts s) (w_inst x)) as [q|] eqn:GI; [|discriminate]. apply get_inv in GI. cbn [bind] in H.
  rewrite (put_inst_live _ _ _ _ GI) in H. cbn [bind] in H. erewrite put_watch_live in H by exact G. cbn [bind] in H. injection H as <-.
  exists (set_wd x (-1)). split; [eapply live_upd_eq, G|cbn; lia].
Qed.

Lemma ms_wunref a s0 s w s' : fdok s -> watch_unref s w = Ok s' -> micros a s0 s s'.
Proof.
  intros F H. unfold watch_unref in H. destruct (get (s_watches s) w) as [x|] eqn:G; [|discriminate]. apply get_inv in G. cbn [bind] in H.
  rewrite (put_watch_live _ _ _ _ G) in H. cbn [bind] in H. set (s1 := set_watches s (upd (s_watches s) w (Some (set_wrefs x (w_refs x - 1))))) in *.
  assert (M1 : micros a s0 s s1) by (eapply ms_one, mi_watch; eauto; left; cbn; lia). eapply ms_trans; [exact M1|]. destruct (Z.eqb_spec (w_refs x - 1) 0) as [Z0|]; [|injection H as <-; constructor].
  destruct (watch_stop s1 w) as [s2|] eqn:ST; [|discriminate]. cbn [bind] in H.
  destruct (stop_micro a s0 s1 w s2) as [M2 F2]; auto.
  { right. intros y Hy. rewrite (live_eq _ _ _ _ Hy (live_upd_eq _ _ _ _ G)). cbn. lia. }
  destruct (stop_after _ _ _ ST) as (y & Ly & Dy).
  rewrite (release_live _ _ _ Ly) in H. cbn [bind] in H. eapply ms_trans; [exact M2|].
  eapply ms_cons; [eapply mi_free; eauto|]. eapply ms_cons; [apply (mi_emit a _ _ (EGone w)); reflexivity|]. eapply ms_unref; [|exact H]. exact F2.
Qed.

Lemma fdok_alive s i q xi : alive s i q xi -> fdok s.
Proof. intros A j p L. pose proof (al_one _ _ _ _ A _ _ L). subst j. rewrite (live_eq _ _ _ _ L (al_live _ _ _ _ A)). split; [apply A|]. intros N.
  unfold source. destruct (al_phase _ _ _ _ A); cbn [find fst]; rewrite ?Nat.eqb_refl; try discriminate; destruct N; reflexivity. Qed.

Lemma dead_insts s : none s -> forall i q, ~ live (s_insts s) i q.
Proof. intros (_ & H & _). apply nlive_0, H. Qed.

Lemma fdok_call s : inv s -> callable (s_stack s) = true -> fdok s.
Proof.
  intros [C [H|[(i & q & H)|(i & q & A & Q)]]] K.
  - intros i q L. destruct (dead_insts _ H _ _ L).
  - destruct H as (_ & _ & _ & _ & _ & [K0|(sid & ok & K0)] & _); rewrite K0 in K; discriminate.
  - eapply fdok_alive, A.
Qed.

Lemma no_close s : inv s -> callable (s_stack s) = true -> forall i, ~ In (FClose i) (s_stack s).
Proof.
  intros [C [H|[(i & q & H)|(i & q & A & Q)]]] K j.
  - destruct H as (_ & _ & _ & _ & [K0|(sid & ok & K0)] & _); rewrite K0 in *; [tauto|discriminate].
  - destruct H as (_ & _ & _ & _ & _ & [K0|(sid & ok & K0)] & _); rewrite K0 in K; discriminate.
  - destruct (al_phase _ _ _ _ A); cbn; intuition discriminate.
Qed.

Lemma keeps_cons f k : fixed f = true -> keeps k (f :: k).
Proof. intros F i. cbn. split; [intros [->|H]; [discriminate|auto]|auto]. Qed.
Lemma keeps_drop f k : fixed f = true -> keeps (f :: k) k.
Proof. intros F i. cbn. split; [auto|intros [->|H]; [discriminate|auto]]. Qed.
Lemma keeps_trans k l m : keeps k l -> keeps l m -> keeps k m.
Proof. intros H K i. rewrite (K i). apply H. Qed.

Lemma ms_new_inst a s0 s s' i : inv s -> callable (s_stack s) = true -> new_inst s = Ok (s', i) -> micros a s0 s s'.
Proof.
  intros I K H. unfold new_inst in H. destruct (s_var s) as [j|] eqn:V.
  - unfold ref_inst in H. destruct (get (s_insts s) j) as [q|] eqn:G; [|discriminate]. apply get_inv in G. cbn [bind] in H.
    rewrite (put_inst_live _ _ _ _ G) in H. cbn [bind] in H. injection H as <- <-. eapply ms_one, mi_inst; eauto.
  - injection H as <- <-.
    assert (D : forall i q, ~ live (s_insts s) i q).
    { destruct I as [_ [H|[(i & q & H)|(i & q & A & _)]]]; [apply dead_insts, H|destruct H as [H _]; congruence|pose proof (al_var _ _ _ _ A); congruence]. }
    eapply ms_cons; [apply mi_init; [exact D|apply no_close; auto]|].
    eapply ms_cons; [apply (mi_ctl a s0 _ (s_var s) ((s_nsrc s, length (s_insts s), false) :: s_srcs s) (S (s_nsrc s)) (s_nid s) (s_stack s)); [cbn; lia|apply keeps_refl]|].
    eapply ms_cons; [apply (mi_emit a _ _ (ESource (s_nsrc s) (length (s_insts s)))); reflexivity|].
    apply ms_ctl; ctl.
Qed.

Lemma ms_put_watch a s0 s w x x' s' : live (s_watches s) w x -> w_wd x' = w_wd x -> w_inst x' = w_inst x -> w_refs x' <= w_refs x \/ 1 <= w_refs x -> put_watch s w x' = Ok s' -> micros a s0 s s'.
Proof. intros L E1 E2 E3 H. rewrite (put_watch_live _ _ _ _ L) in H. injection H as <-. eapply ms_one, mi_watch; eauto. Qed.

Lemma ms_call s c s' : inv s -> callable (s_stack s) = true -> do_call s c = Ok s' -> micros (ACall c) s s s'.
Proof.
  intros I K H. pose proof (fdok_call _ I K) as F. destruct c as [n| |w|w|w|w|w id]; cbn [do_call] in H.
  - unfold watch_new in H. destruct (new_inst s) as [[s1 i]|] eqn:N; [|discriminate]. cbn [bind] in H.
    pose proof (ms_new_inst (ACall (CNew n)) s _ _ _ I K N) as M1. eapply ms_trans; [exact M1|].
    assert (NT : (forall w j m v, In (ENew w j m v) (s_trace s1) -> In (ENew w j m v) (s_trace s)) /\ (forall e, In e (s_trace s) -> In e (s_trace s1))).
    { unfold new_inst in N. destruct (s_var s) as [z|]; [|injection N as <- <-; cbn; split; [intros ? ? ? ? [?|[?|?]]; [discriminate|discriminate|auto]|auto]].
      unfold ref_inst in N. destruct (get (s_insts s) z) as [p|] eqn:GP; [|discriminate]. apply get_inv in GP. cbn [bind] in N.
      rewrite (put_inst_live _ _ _ _ GP) in N. cbn [bind] in N. injection N as <- <-. cbn. auto. }
    destruct NT as [NT1 NT2].
    destruct (new_inst_ok _ I K) as (s1' & i' & q' & N' & C1 & A1 & K1). rewrite N in N'. injection N' as <- <-.
    destruct (get (s_insts s1) i) as [q|] eqn:G; [|discriminate]. apply get_inv in G. cbn [bind] in H.
    pose proof (live_eq _ _ _ _ G (al_live _ _ _ _ A1)) as E. subst q'.
    destruct n as [n|].
    + destruct (kadd (s_fds s1) (i_fd q) n) as [[l wd]|] eqn:KA.
      * assert (WD : 0 <= wd).
        { destruct (kadd_ok _ _ n (al_fd _ _ _ _ A1)) as (l' & wd' & KA' & X & _). rewrite KA in KA'. injection KA' as <- <-. lia. }
        erewrite put_inst_live in H by exact G. cbn [bind] in H. injection H as <-.
        eapply ms_cons; [eapply mi_inst; [exact G| |]|].
        3: { apply ms_one. exact (mi_new (ACall (CNew (Some n))) s (set_insts s1 (upd (s_insts s1) i (Some (set_table q (t_insert (i_watches q) wd (length (s_watches s1))))))) i
               (set_table q (t_insert (i_watches q) wd (length (s_watches s1)))) n l wd (live_upd_eq _ _ _ _ G) eq_refl KA WD NT1 NT2). }
        all: reflexivity.
      * destruct (unref_inst s1 i) as [s2|] eqn:U; [|discriminate]. cbn [bind] in H. injection H as <-.
        eapply ms_trans; [eapply ms_unref; [eapply fdok_alive, A1|exact U]|]. apply ms_one, mi_emit. reflexivity.
    + destruct (unref_inst s1 i) as [s2|] eqn:U; [|discriminate]. cbn [bind] in H. injection H as <-.
      eapply ms_trans; [eapply ms_unref; [eapply fdok_alive, A1|exact U]|]. apply ms_one, mi_emit. reflexivity.
  - destruct (s_var s); injection H as <-; [constructor|]. apply ms_one, mi_emit. reflexivity.
  - destruct (get (s_watches s) w) as [x|] eqn:G; [|discriminate]. apply get_inv in G. cbn [bind] in H.
    rewrite (put_watch_live _ _ _ _ G) in H. cbn [bind] in H. injection H as <-.
    eapply ms_cons; [apply (mi_watch _ _ s w x (set_wrefs x (w_refs x + 1))); auto; right; apply (co_pos _ _ (proj1 I) _ _ G)|]. apply ms_one, mi_emit. reflexivity.
  - eapply ms_cons; [apply (mi_emit _ _ _ (EUnref w)); reflexivity|]. eapply ms_wunref; [|exact H]. exact F.
  - destruct (watch_stop (emit s (EDestroy w)) w) as [s1|] eqn:ST; [|discriminate]. cbn [bind] in H.
    eapply ms_cons; [apply (mi_destroy _ _ s w); reflexivity|].
    destruct (stop_micro (ACall (CDestroy w)) s (emit s (EDestroy w)) w s1) as [M1 F1]; auto; [left; left; reflexivity|]. eapply ms_trans; [exact M1|]. eapply ms_wunref; [exact F1|exact H].
  - destruct (get (s_watches s) w) as [x|] eqn:G; [|discriminate]. apply get_inv in G. cbn [bind] in H.
    rewrite (put_watch_live _ _ _ _ G) in H. cbn [bind] in H. injection H as <-.
    eapply ms_cons; [apply (mi_watch _ _ s w x (set_handlers x (w_handlers x ++ [s_nid s]))); auto; left; cbn; lia|].
    eapply ms_trans; [|apply ms_one, mi_emit; reflexivity]. apply ms_ctl; ctl.
  - destruct (get (s_watches s) w) as [x|] eqn:G; [|discriminate]. apply get_inv in G. cbn [bind] in H.
    rewrite (put_watch_live _ _ _ _ G) in H. cbn [bind] in H. injection H as <-.
    eapply ms_cons; [apply (mi_watch _ _ s w x (set_handlers x (filter (fun j => negb (Nat.eqb j id)) (w_handlers x)))); auto; left; cbn; lia|]. apply ms_one, mi_emit. reflexivity.
Qed.

Lemma ms_stack a s0 s k : keeps (s_stack s) k -> micros a s0 s (set_stack s k).
Proof. intros H. apply ms_ctl; ctl; auto. Qed.

Lemma fdok_top s f k : inv s -> s_stack s = f :: k -> fixed f = true -> fdok s.
Proof.
  intros [C [H|[(i & q & H)|(i & q & A & Q)]]] K X.
  - intros i q L. destruct (dead_insts _ H _ _ L).
  - destruct H as (_ & _ & _ & _ & _ & [K0|(sid & ok & K0)] & _); rewrite K0 in K; injection K as <- _; discriminate.
  - eapply fdok_alive, A.
Qed.

Lemma ms_loop s i o n k s' : inv s -> s_stack s = FLoop i o n :: k -> loop s i o n k = Ok s' -> micros AGo s s s'.
Proof.
  intros I K H. pose proof (fdok_top _ _ _ I K eq_refl) as F. unfold loop in H. destruct (get (s_insts s) i) as [q|] eqn:G; [|discriminate]. cbn [bind] in H.
  assert (E : forall s', loop_end (set_stack s k) i = Ok s' -> micros AGo s s s').
  { intros s1 H1. unfold loop_end in H1. eapply ms_trans; [apply (ms_stack AGo s s k); rewrite K; apply keeps_drop; reflexivity|].
    eapply ms_cons; [apply (mi_emit _ _ _ (EReadEnd i)); reflexivity|]. eapply ms_unref; [|exact H1]. exact F. }
  destruct (n >? 0); [|apply E, H]. destruct (rd_u32 (i_buf q) (o + 12)) as [l|]; [|discriminate]. cbn [bind] in H.
  destruct (16 + l >? n); [apply E, H|]. destruct (rd_u32 (i_buf q) o) as [wd|]; [|discriminate]. cbn [bind] in H.
  destruct (t_lookup (i_watches q) (s32 wd)) as [w|].
  - destruct (get (s_watches s) w) as [x|] eqn:GW; [|discriminate]. apply get_inv in GW. cbn [bind] in H.
    rewrite (put_watch_live _ _ _ _ GW) in H. cbn [bind] in H.
    destruct (rd_u32 (i_buf q) (o + 4)) as [m|]; [|discriminate]. cbn [bind] in H. destruct (rd_u32 (i_buf q) (o + 8)) as [c|]; [|discriminate]. cbn [bind] in H.
    injection H as <-. eapply ms_cons; [apply (mi_watch _ _ s w x (set_wrefs x (w_refs x + 1))); auto; right; apply (co_pos _ _ (proj1 I) _ _ GW)|].
    eapply ms_cons; [apply (mi_emit _ _ _ (ELook i (s32 wd) (Some w))); reflexivity|]. apply ms_stack. cbn. rewrite K. intros j. cbn. intuition discriminate.
  - injection H as <-. eapply ms_cons; [apply (mi_emit _ _ _ (ELook i (s32 wd) None)); reflexivity|]. apply ms_stack. cbn. rewrite K. intros j. cbn. intuition discriminate.
Qed.

Lemma ms_emission s i w wd m c p la mx k s' : inv s -> s_stack s = FEmit i w wd m c p la mx :: k -> emission s i w wd m c p la mx k = Ok s' -> micros AGo s s s'.
Proof.
  intros I K H. pose proof (fdok_top _ _ _ I K eq_refl) as F. unfold emission in H. destruct (get (s_watches s) w) as [x|] eqn:G; [|discriminate]. cbn [bind] in H.
  destruct (find _ (w_handlers x)) as [id|].
  - match type of H with bind ?X _ = _ => destruct X as [name|]; [|discriminate] end. cbn [bind] in H. injection H as <-.
    eapply ms_cons; [apply (mi_emit _ _ _ (ECall w id (IEv wd m c name))); reflexivity|]. apply ms_stack. cbn. rewrite K. intros j. cbn. intuition discriminate.
  - eapply ms_trans; [apply (ms_stack AGo s s k); rewrite K; apply keeps_drop; reflexivity|]. eapply ms_wunref; [|exact H]. exact F.
Qed.

Lemma find_map_busy sid b l n : find (fun x => Nat.eqb (fst (fst x)) n) (map (fun x => if Nat.eqb (fst (fst x)) sid then (fst x, b) else x) l) =
  option_map (fun x : nat * nat * bool => if Nat.eqb (fst (fst x)) sid then (fst x, b) else x) (find (fun x => Nat.eqb (fst (fst x)) n) l).
Proof.
  induction l as [|x l IH]; auto. cbn [map find]. replace (fst (fst (if Nat.eqb (fst (fst x)) sid then (fst x, b) else x))) with (fst (fst x)) by (destruct (Nat.eqb _ _); reflexivity).
  destruct (Nat.eqb (fst (fst x)) n); auto.
Qed.

Lemma ms_dispatch s sid r s' : inv s -> callable (s_stack s) = true -> dispatch s sid r = Ok s' -> micros (ADispatch sid r) s s s'.
Proof.
  intros I K H. pose proof (fdok_call _ I K) as F. unfold dispatch in H. destruct (source s sid) as [[[z i] b]|] eqn:SRC; [|injection H as <-; constructor].
  destruct b; [injection H as <-; constructor|]. destruct (get (s_insts s) i) as [q|] eqn:G; [|discriminate]. apply get_inv in G. cbn [bind] in H.
  destruct r as [| |d].
  - erewrite put_inst_live in H by exact G. cbn [bind] in H. injection H as <-.
    eapply ms_cons; [apply (mi_deaf _ _ s i q (set_src q 0)); [cbn; tauto|exact G|reflexivity]|]. apply ms_remove_source. change (source s sid <> None). rewrite SRC. discriminate.
  - erewrite put_inst_live in H by exact G. cbn [bind] in H.
    eapply ms_trans; [apply (ms_ctl _ _ s (set_srcs s (map (fun x => if Nat.eqb (fst (fst x)) sid then (fst x, true) else x) (s_srcs s)) (s_nsrc s))); ctl|].
    eapply ms_cons; [apply (mi_deaf _ _ (set_srcs s (map (fun x => if Nat.eqb (fst (fst x)) sid then (fst x, true) else x) (s_srcs s)) (s_nsrc s)) i q (set_refs (set_src q 0) (i_refs q + 1))); [cbn; tauto|exact G|reflexivity]|].
    eapply ms_trans; [eapply (ms_stack _ _ _ (FEnd sid false :: s_stack s)); apply keeps_cons; reflexivity|].
    eapply ms_unref; [|exact H]. intros j p L. apply live_upd in L. destruct L as [[_ L]|[NE L]].
    + injection L as <-. split; [apply (F _ _ G)|]. cbn. tauto.
    + destruct (F _ _ L) as [F1 F2]. split; [exact F1|]. intros N. specialize (F2 N). unfold source in *. cbn [set_stack set_insts set_srcs s_srcs].
      rewrite find_map_busy. destruct (find (fun x => Nat.eqb (fst (fst x)) (i_src p)) (s_srcs s)); [cbn; discriminate|destruct F2; reflexivity].
  - destruct (len d <=? 272); [|injection H as <-; constructor]. erewrite put_inst_live in H by exact G. cbn [bind] in H. injection H as <-.
    eapply ms_trans; [apply (ms_ctl _ _ s (set_srcs s (map (fun x => if Nat.eqb (fst (fst x)) sid then (fst x, true) else x) (s_srcs s)) (s_nsrc s))); ctl|].
    eapply ms_cons; [apply (mi_inst _ _ (set_srcs s (map (fun x => if Nat.eqb (fst (fst x)) sid then (fst x, true) else x) (s_srcs s)) (s_nsrc s)) i q (set_refs (set_buf q (map Some d ++ skipn (length d) (i_buf q))) (i_refs q + 1)) G); reflexivity|].
    eapply ms_cons; [apply (mi_emit _ _ _ (ERead i d)); reflexivity|]. apply ms_stack.
    eapply keeps_trans; [apply (keeps_cons (FEnd sid true)); reflexivity|apply keeps_cons; reflexivity].
Qed.

Lemma ms_step s a s' : inv s -> step s a = Ok s' -> micros a s s s'.
Proof.
  intros I H. assert (DONE : Ok s = Ok s' -> micros a s s s') by (intros E; injection E as <-; constructor).
  destruct a as [c| | |sid r|fd n| |fd]; cbn [step] in H.
  - destruct (callable (s_stack s)) eqn:K; [|auto]. apply ms_call; auto.
  - destruct (s_stack s) as [|f k] eqn:K; [auto|]. destruct f; auto. injection H as <-.
    eapply ms_trans; [apply (ms_stack _ s s k); rewrite K; apply keeps_drop; reflexivity|]. apply ms_one, mi_emit. reflexivity.
  - destruct (s_stack s) as [|f k] eqn:K; [auto|]. destruct f; auto.
    + destruct I as [C [I|[(j & q & I)|(j & q & A & Q)]]].
      * destruct I as (_ & _ & _ & _ & [K0|(z & b & K0)] & _); rewrite K0 in K; discriminate.
      * destruct I as (V & L & O & NW & S0 & K0 & F).
        assert (j = i) as -> by (destruct K0 as [K0|(z & b & K0)]; rewrite K0 in K; congruence).
        assert (K1 : k = [] \/ exists sid ok, k = [FEnd sid ok]) by (destruct K0 as [K0|(z & b & K0)]; rewrite K0 in K; injection K as <-; eauto).
        unfold close_end in H. cbn [set_stack s_insts] in H. rewrite (get_live _ _ _ L) in H. cbn [bind] in H.
        assert (EI : s_insts (close (set_stack s k) (i_fd q)) = s_insts s) by (unfold close; destruct (nth_error (s_fds (set_stack s k)) (i_fd q)) as [[|]|]; reflexivity).
        assert (EV : s_var (close (set_stack s k) (i_fd q)) = s_var s) by (unfold close; destruct (nth_error (s_fds (set_stack s k)) (i_fd q)) as [[|]|]; reflexivity).
        rewrite EI in H. rewrite (release_live _ _ _ L) in H. cbn [bind] in H. cbn [set_insts s_var] in H. rewrite EV, V, Nat.eqb_refl in H. injection H as <-.
        eapply ms_trans; [apply ms_one; apply (mi_gone AGo s s i q k L K)|].
        -- intros z. destruct K1 as [->|(sid & ok & ->)]; cbn; intuition discriminate.
        -- apply ms_ctl; ctl.
      * pose proof (al_phase _ _ _ _ A) as P. rewrite K in P. inversion P.
    + eapply ms_loop; eauto.
    + eapply ms_emission; eauto.
    + injection H as <-. eapply ms_trans; [apply (ms_stack _ s s k); rewrite K; apply keeps_drop; reflexivity|].
      unfold dispatch_end. destruct (source (set_stack s k) sid) as [[[z i] b]|] eqn:SRC; [|constructor]. destruct ok; [|apply ms_remove_source; rewrite SRC; discriminate].
      apply ms_ctl; ctl.
  - destruct (callable (s_stack s)) eqn:K; [|auto]. apply ms_dispatch; auto.
  - injection H as <-. apply ms_one, mi_drop. reflexivity.
  - injection H as <-. apply ms_one, mi_open; reflexivity.
  - destruct (nth_error (s_fds s) fd) as [[[k|]|]|] eqn:E; auto. injection H as <-. apply ms_one, mi_shut. exact E.
Qed.
