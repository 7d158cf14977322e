(* C73: weak references *)
From Verif Require Import Base WeakModel WeakSpec WeakProofs.

(* Deciding the discipline, for examples *)
Definition dyingb (o : nat) (s : state) : bool := match nth_error (s_objs s) o with Some x => match g_life x with Disposing => true | _ => false end | None => false end.
Lemma dyingb_spec o s : dyingb o s = true <-> dying o s.
Proof.
  unfold dyingb, dying. destruct (nth_error (s_objs s) o) as [x|]; [|split; [discriminate|intros (x & E & _); discriminate]].
  destruct (g_life x) eqn:L; split; try discriminate; try (intros (y & E & D); injection E as <-; congruence); try reflexivity. intros _. exists x. auto.
Qed.
Definition settableb (s : state) (p : option nat) : bool := match p with Some o => (0 <? strong o (s_trace s)) && negb (dyingb o s) | None => true end.
Definition hasb (s : state) (w : option nat) : bool := match w with Some w => 0 <? held w (s_trace s) | None => true end.
Definition fairb (s : state) (a : action) : bool :=
  match a with
  | ANew => true
  | ARef o => (0 <? strong o (s_trace s)) || dyingb o s
  | AUnref o => 0 <? strong o (s_trace s)
  | ADisposed o => dyingb o s
  | AWeak p => settableb s p
  | AWRef w | AWUnref w | AGet w => hasb s w
  | AWEnd w => match nth_error (s_weak s) w with Some x => (w_count x =? 0) && w_live x | None => false end
  | ASet w p => hasb s w && settableb s p
  end.
Lemma fairb_ok s a : fairb s a = true -> fair s a.
Proof.
  assert (S1 : forall p, settableb s p = true -> settable s p).
  { intros [o|] H; [|exact I]. cbn [settableb settable] in *. apply andb_true_iff in H as [A B]. split; [apply Z.ltb_lt in A; lia|].
    intros D. apply dyingb_spec in D. rewrite D in B. discriminate. }
  assert (H1 : forall w, hasb s w = true -> has s w) by (intros [w|] H; [apply Z.ltb_lt in H; cbn [has]; lia|exact I]).
  destruct a as [|o|o|o|p|w|w|w|w|w p]; cbn [fairb fair]; intros H; auto.
  - apply orb_true_iff in H as [H|H]; [left; apply Z.ltb_lt in H; lia|right; apply dyingb_spec; exact H].
  - apply Z.ltb_lt in H. lia.
  - apply dyingb_spec. exact H.
  - destruct (nth_error (s_weak s) w) as [x|] eqn:E; [|discriminate]. apply andb_true_iff in H as [A B]. apply Z.eqb_eq in A. exists x. auto.
  - apply andb_true_iff in H as [A B]. auto.
Qed.
Fixpoint alongb (s : state) (l : list action) : bool :=
  match l with [] => true | a :: l => fairb s a && match step s a with Ok s => alongb s l | Fail _ => true end end.
Lemma alongb_ok l : forall s, alongb s l = true -> all_along fair s l.
Proof.
  induction l as [|a l IH]; intros s H; [exact I|]. cbn [alongb all_along] in *. apply andb_true_iff in H as [A B].
  split; [exact (fairb_ok s a A)|]. destruct (step s a); [exact (IH _ B)|exact I].
Qed.

(* Nothing is used after it has been freed *)
Theorem C73_safe : forall l, all_along fair start l -> exists s, run start l = Ok s.
Proof. intros l F. destruct (inv_run l _ inv_start F) as (s & E & _). eauto. Qed.
Print Assumptions C73_safe.

(* Two objects, two weak references to the first one. One of them is given up before the object is, the other
   one after; it is set to the second object in between. The first object gets a reference while it is disposed. *)
Definition story : list action :=
  [ANew; ANew; AWeak (Some 0); AWeak None; ASet (Some 1) (Some 0); AGet (Some 1); AWRef (Some 0); AWUnref (Some 0); AWUnref (Some 0); AUnref 0; AWEnd 0;
   AUnref 0; ARef 0; AGet (Some 1); ADisposed 0; AGet (Some 1); ASet (Some 1) (Some 0); AGet (Some 1); ASet (Some 1) (Some 1); AUnref 0; AUnref 0; ADisposed 0;
   AGet (Some 1); AUnref 1]%nat.
Example C73_example_safe : all_along fair start story /\ exists s, run start story = Ok s /\
  s_trace s = [EUnref 1; EGot 1 (Some 1); EFinal 0; EDying 0; EUnref 0; EUnref 0; ESet 1 (Some 1); EGot 1 (Some 0); ESet 1 (Some 0);
    EGot 1 None; EGot 1 None; ERef 0; EDying 0; EUnref 0; EFree 0; EUnref 0; EWUnref 0; EWUnref 0; EWRef 0; EGot 1 (Some 0); ESet 1 (Some 0);
    EWeak 1 None; EWeak 0 (Some 0); EObj 1; EObj 0]%nat.
Proof. split; [apply alongb_ok; vm_compute; reflexivity|]. eexists. split; [vm_compute; reflexivity|]. reflexivity. Qed.

(* gutil_weakref_get returns what has been set last, if that has not lost its last reference since, and else NULL. What it returns
   is alive, and gets a reference. *)
Theorem C73_get : forall l s w, all_along fair start l -> run start l = Ok s -> held w (s_trace s) > 0 ->
  exists s', step s (AGet (Some w)) = Ok s' /\ s_trace s' = EGot w (aim w (s_trace s)) :: s_trace s /\
  forall o, aim w (s_trace s) = Some o -> strong o (s_trace s) > 0 /\ ~ dying o s /\
    exists x x', nth_error (s_objs s) o = Some x /\ nth_error (s_objs s') o = Some x' /\ g_life x = Alive /\ g_life x' = Alive /\ g_refs x' = g_refs x + 1.
Proof.
  intros l s w F E G. pose proof (inv_reach l s F E) as V. destruct (held_weak s w V G) as (y & W & L & C & P).
  cbn [step weakref_get]. unfold weak_ref_get. rewrite (weak_ok s w y W L). cbn [bind]. rewrite P. destruct (aim w (s_trace s)) as [o|] eqn:A.
  - destruct (L_ptr s (I_locs s V) w y o W L P) as (x & X & M). pose proof (L_life s (I_locs s V) o x w X M) as LX.
    pose proof (I_obj s V o x X) as K. unfold ok_obj in K. rewrite LX in K. unfold object_ref. rewrite (obj_ok s o x X) by congruence. cbn [bind].
    eexists. split; [reflexivity|]. split; [reflexivity|]. intros p Q. injection Q as <-. split; [lia|]. split; [intros (z & Z & D); congruence|].
    eexists. eexists. split; [exact X|]. cbn [emit set_obj s_objs]. split; [exact (nth_upd_eq _ _ _ _ X)|]. cbn [g_life g_refs]. auto.
  - cbn [bind]. eexists. split; [reflexivity|]. split; [reflexivity|]. intros o Q. discriminate.
Qed.
Print Assumptions C73_get.

Example C73_example_get : exists s, run start (firstn 5 story) = Ok s /\ held 1 (s_trace s) = 1 /\ aim 1 (s_trace s) = Some 0%nat /\ strong 0 (s_trace s) = 1.
Proof. eexists. split; [vm_compute; reflexivity|]. vm_compute. auto. Qed.

(* A NULL weak reference *)
Theorem C73_null : forall s p, step s (AGet None) = Ok (emit s (ENull None)) /\ step s (ASet None p) = Ok s /\ step s (AWRef None) = Ok s /\ step s (AWUnref None) = Ok s.
Proof. intros s p. repeat split. Qed.
Print Assumptions C73_null.

(* Weak references do not keep objects: whatever weak references there are, an object is disposed by the unref of the last
   reference clients have, and finalized when dispose returns if it has not got other ones *)
Theorem C73_weak : forall l s o, all_along fair start l -> run start l = Ok s ->
  (strong o (s_trace s) > 0 -> exists s', step s (AUnref o) = Ok s' /\
     (strong o (s_trace s) = 1 /\ ~ dying o s -> s_trace s' = EDying o :: EUnref o :: s_trace s) /\
     (strong o (s_trace s) > 1 \/ dying o s -> s_trace s' = EUnref o :: s_trace s)) /\
  (dying o s -> exists s', step s (ADisposed o) = Ok s' /\
     (strong o (s_trace s) = 0 -> s_trace s' = EFinal o :: s_trace s) /\ (strong o (s_trace s) > 0 -> s_trace s' = s_trace s /\ ~ dying o s')).
Proof.
  intros l s o F E. pose proof (inv_reach l s F E) as V. split.
  - intros G. cbn [step]. destruct (inv_unref s o V G) as (s' & X & _ & D). exists s'. split; [exact X|]. split.
    + intros [G1 ND]. destruct D as [[_ D]|[D _]]; [|exact D]. destruct D; [lia|contradiction].
    + intros Q. destruct D as [[D _]|(_ & D1 & D2)]; [exact D|]. destruct Q; [lia|contradiction].
  - intros (x & X & L). cbn [step]. unfold object_disposed. rewrite (obj_ok s o x X) by congruence. cbn [bind]. rewrite L.
    pose proof (I_obj s V o x X) as K. unfold ok_obj in K. rewrite L in K. destruct (Z.eqb_spec (g_refs x) 1) as [R|R]; eexists; (split; [reflexivity|]); (split; [intros G|intros G]).
    + reflexivity.
    + lia.
    + lia.
    + split; [reflexivity|]. intros (z & Z & D). cbn [set_obj s_objs] in Z. rewrite (nth_upd_eq _ _ _ _ X) in Z. injection Z as <-. discriminate.
Qed.
Print Assumptions C73_weak.

Example C73_example_weak : exists s s', run start (firstn 11 story) = Ok s /\ aim 1 (s_trace s) = Some 0%nat /\ strong 0 (s_trace s) = 1 /\
  step s (AUnref 0) = Ok s' /\ s_trace s' = EDying 0 :: EUnref 0 :: s_trace s /\ dying 0 s' /\ aim 1 (s_trace s') = None.
Proof. eexists. eexists. split; [vm_compute; reflexivity|]. split; [reflexivity|]. split; [reflexivity|]. split; [vm_compute; reflexivity|]. split; [reflexivity|]. split; [|reflexivity]. eexists. split; reflexivity. Qed.

(* An object which is dying, or final, is not the target of a weak reference somebody has *)
Theorem C73_dead : forall l s w o, all_along fair start l -> run start l = Ok s -> held w (s_trace s) > 0 -> aim w (s_trace s) = Some o ->
  strong o (s_trace s) > 0 /\ ~ In (EFinal o) (s_trace s).
Proof.
  intros l s w o F E G A. destruct (C73_get l s w F E G) as (s' & _ & _ & Q). destruct (Q o A) as (S1 & _ & x & _ & X & _ & L & _). split; [exact S1|].
  assert (FIN : forall l s, all_along fair start l -> run start l = Ok s -> forall o, In (EFinal o) (s_trace s) -> exists x, nth_error (s_objs s) o = Some x /\ g_life x = Final).
  2:{ intros M. destruct (FIN l s F E o M) as (z & Z & D). congruence. }
  clear.
  assert (ST : forall s a s', step s a = Ok s' -> (forall o, In (EFinal o) (s_trace s) -> exists x, nth_error (s_objs s) o = Some x /\ g_life x = Final) ->
    Inv s -> fair s a -> forall o, In (EFinal o) (s_trace s') -> exists x, nth_error (s_objs s') o = Some x /\ g_life x = Final).
  { intros s a s' X H V Fa o M.
    assert (KEEP : forall s1, same_objs s s1 -> In (EFinal o) (s_trace s) -> exists x, nth_error (s_objs s1) o = Some x /\ g_life x = Final).
    { intros s1 [LEN SO] M1. destruct (H o M1) as (x & E & L). destruct (nth_error (s_objs s1) o) as [x'|] eqn:E'; [|apply nth_error_None in E'; apply nth_len in E; lia].
      exists x'. split; [reflexivity|]. destruct (SO o x' E') as (x1 & X1 & L1 & _). congruence. }
    assert (KEEP2 : forall p y z, nth_error (s_objs s) p = Some y -> g_life y <> Final -> In (EFinal o) (s_trace s) -> exists x, nth_error (upd (s_objs s) p z) o = Some x /\ g_life x = Final).
    { intros p y z E L M1. destruct (H o M1) as (x & Ex & Lx). rewrite nth_error_upd_ne by congruence. exists x. auto. }
    destruct a as [|p|p|p|p|w|w|w|w|w p]; cbn [step] in X.
    - injection X as <-. cbn [s_objs s_trace In] in *. destruct M as [M|M]; [discriminate|]. destruct (H o M) as (x & E & L). exists x. split; [|exact L].
      rewrite nth_error_app1; [exact E|exact (nth_len _ _ _ E)].
    - unfold object_ref in X. destruct (obj s p) as [y|] eqn:Y; [|discriminate]. cbn [bind] in X. injection X as <-. cbn [emit set_obj s_objs s_trace In] in *.
      destruct M as [M|M]; [discriminate|]. unfold obj in Y. destruct (nth_error (s_objs s) p) as [y'|] eqn:E; [|discriminate]. destruct (g_life y') eqn:L; try discriminate; injection Y as ->; apply (KEEP2 p y); congruence.
    - cbn [fair] in Fa. destruct (inv_unref s p V Fa) as (s1 & X1 & _ & D). assert (s1 = s') by congruence. subst s1.
      destruct (strong_obj s p V Fa) as (y & Y & L). unfold object_unref in X. rewrite (obj_ok s p y Y L) in X. cbn [bind] in X.
      assert (M1 : In (EFinal o) (s_trace s)).
      { destruct D as [[D _]|[D _]]; rewrite D in M; cbn [In] in M; intuition discriminate. }
      destruct ((g_refs y =? 1) && match g_life y with Alive => true | _ => false end).
      + destruct (clear_locs (emit s (EUnref p)) (g_locs y)) as [s1|] eqn:C; [|discriminate]. cbn [bind] in X. injection X as <-. cbn [emit set_obj s_objs].
        destruct (clear_ok (g_locs y) (emit s (EUnref p))) as (s2 & C2 & _ & O & _).
        { intros w MW. destruct (L_loc s (I_locs s V) p y w Y MW) as (z & Z & ZL & _). exists z. auto. }
        assert (s2 = s1) by congruence. subst s2. rewrite O. exact (KEEP2 p y _ Y L M1).
      + injection X as <-. exact (KEEP2 p y _ Y L M1).
    - cbn [fair] in Fa. destruct Fa as (y & Y & L). unfold object_disposed in X. rewrite (obj_ok s p y Y) in X by congruence. cbn [bind] in X. rewrite L in X.
      destruct (g_refs y =? 1); injection X as <-; cbn [emit set_obj s_objs s_trace In] in *.
      + destruct M as [M|M].
        * injection M as ->. eexists. split; [exact (nth_upd_eq _ _ _ _ Y)|reflexivity].
        * apply (KEEP2 p y); [exact Y|congruence|exact M].
      + apply (KEEP2 p y); [exact Y|congruence|exact M].
    - cbn [fair] in Fa. unfold weakref_new in X. cbv zeta in X.
      set (s1 := State (s_objs s) (s_weak s ++ [WRef 1 None true]) (EWeak (length (s_weak s)) p :: s_trace s)) in *.
      assert (W : nth_error (s_weak s1) (length (s_weak s)) = Some (WRef 1 None true)) by (cbn [s1 s_weak]; rewrite nth_error_app2, Nat.sub_diag by lia; reflexivity).
      assert (VL : Locs s1).
      { constructor; cbn [s1 s_objs s_weak].
        - intros q x v E MV. destruct (L_loc s (I_locs s V) q x v E MV) as (y & Y & YL & YP). exists y. split; [|auto]. rewrite nth_error_app1; [exact Y|exact (nth_len _ _ _ Y)].
        - intros v y q E L P. destruct (Nat.lt_ge_cases v (length (s_weak s))) as [Lv|Lv].
          + rewrite nth_error_app1 in E by exact Lv. exact (L_ptr s (I_locs s V) v y q E L P).
          + rewrite nth_error_app2 in E by exact Lv. destruct (v - length (s_weak s))%nat as [|[|]]; try discriminate. injection E as <-. discriminate.
        - exact (L_life s (I_locs s V)). }
      destruct (wset s1 _ _ p VL W eq_refl (settable_ok s p V Fa)) as (s2 & E2 & T2 & _ & SO & _). assert (s2 = s') by congruence. subst s2.
      rewrite T2 in M. cbn [s1 s_trace In] in M. destruct M as [M|M]; [discriminate|]. exact (KEEP s' SO M).
    - unfold weakref_ref in X. destruct w as [w|]; [|injection X as <-; auto]. destruct (weak s w) as [y|]; [|discriminate]. cbn [bind] in X. injection X as <-.
      cbn [emit set_weak s_objs s_trace In] in *. destruct M as [M|M]; [discriminate|]. exact (H o M).
    - unfold weakref_unref in X. destruct w as [w|]; [|injection X as <-; auto]. destruct (weak s w) as [y|]; [|discriminate]. cbn [bind] in X. injection X as <-.
      cbn [emit set_weak s_objs s_trace In] in *. destruct M as [M|M]; [discriminate|]. exact (H o M).
    - cbn [fair] in Fa. destruct Fa as (y & W & C0 & L). unfold weakref_end in X. rewrite (weak_ok s w y W L) in X. cbn [bind] in X. rewrite C0 in X. cbn [Z.eqb] in X.
      destruct (wset s w y None (I_locs s V) W L) as (s1 & E1 & T1 & SW & SO & _); [intros b Q; discriminate|]. rewrite E1 in X. cbn [bind] in X.
      destruct (weak s1 w) as [y1|]; [|discriminate]. cbn [bind] in X. injection X as <-. cbn [emit set_weak s_objs s_trace In] in *. rewrite T1 in M.
      destruct M as [M|M]; [discriminate|]. exact (KEEP s1 SO M).
    - unfold weakref_get in X. destruct w as [w|].
      + unfold weak_ref_get in X. destruct (weak s w) as [y|]; [|discriminate]. cbn [bind] in X. destruct (w_ptr y) as [q|].
        * unfold object_ref in X. destruct (obj s q) as [z|] eqn:Z; [|discriminate]. cbn [bind] in X. injection X as <-. cbn [emit set_obj s_objs s_trace In] in *.
          destruct M as [M|M]; [discriminate|]. unfold obj in Z. destruct (nth_error (s_objs s) q) as [z'|] eqn:E; [|discriminate]. destruct (g_life z') eqn:L; try discriminate; injection Z as ->; apply (KEEP2 q z); congruence.
        * cbn [bind] in X. injection X as <-. cbn [emit s_objs s_trace In] in *. destruct M as [M|M]; [discriminate|]. exact (H o M).
      + injection X as <-. cbn [emit s_objs s_trace In] in *. destruct M as [M|M]; [discriminate|]. exact (H o M).
    - unfold weakref_set in X. destruct Fa as [F1 F2]. destruct w as [w|]; [|injection X as <-; auto]. destruct (held_weak s w V F1) as (y & W & L & C & P).
      destruct (wset s w y p (I_locs s V) W L (settable_ok s p V F2)) as (s1 & E & T & SW & SO & V1). rewrite E in X. cbn [bind] in X. injection X as <-.
      cbn [emit s_objs s_trace In] in *. rewrite T in M. destruct M as [M|M]; [discriminate|]. exact (KEEP s1 SO M). }
  assert (GEN : forall l s s', Inv s -> all_along fair s l -> run s l = Ok s' ->
    (forall o, In (EFinal o) (s_trace s) -> exists x, nth_error (s_objs s) o = Some x /\ g_life x = Final) ->
    forall o, In (EFinal o) (s_trace s') -> exists x, nth_error (s_objs s') o = Some x /\ g_life x = Final).
  { induction l as [|a l IH]; intros s s' V F E H; [injection E as <-; exact H|]. destruct F as [Fa F]. cbn [run] in E.
    destruct (inv_step s a V Fa) as (s1 & X & V1). rewrite X in E, F. cbn [bind] in E. exact (IH s1 s' V1 F E (ST s a s1 X H V Fa)). }
  intros l s F E. apply (GEN l start s inv_start F E). intros o [].
Qed.
Print Assumptions C73_dead.

Example C73_example_dead : exists s, run start story = Ok s /\ In (EFinal 0) (s_trace s) /\ aim 1 (s_trace s) = Some 1%nat /\ held 1 (s_trace s) = 1.
Proof. eexists. split; [vm_compute; reflexivity|]. split; [cbn; tauto|]. split; reflexivity. Qed.
