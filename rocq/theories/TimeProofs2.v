(* Every step keeps the invariant *)
From Verif Require Import Base TimeModel TimeSpec TimeProofs.

Lemma frames_nonneg o l : 0 <= in_frames o l.
Proof. induction l; cbn [in_frames]; [lia|]. destruct (Nat.eqb (f_obj a) o); lia. Qed.

Lemma cur_frames s o : cur s -> in_frames o (s_frames s) > 0 -> s_inst s = Some o.
Proof.
  unfold cur. destruct (s_inst s) as [p|].
  - intros (x & _ & _ & _ & _ & _ & K) G. destruct (t_chan x) as [c|].
    + destruct K as (on & run & _ & _ & K & _). destruct run.
      * destruct K as (_ & l & K). rewrite K in G. cbn [in_frames f_obj] in G. destruct (Nat.eqb_spec p o); [congruence|lia].
      * rewrite K in G. cbn [in_frames] in G. lia.
    + destruct K as (_ & K & _). rewrite K in G. cbn [in_frames] in G. lia.
  - intros [K _] G. rewrite K in G. cbn [in_frames] in G. lia.
Qed.

Lemma usable_inst s o : Inv s -> usable o (s_trace s) -> s_inst s = Some o.
Proof.
  intros V [G|G].
  - destruct (s_inst s) as [p|] eqn:P.
    + destruct (Nat.eq_dec p o) as [->|N]; [reflexivity|]. pose proof (V_strong s V o) as Q. rewrite P in Q. rewrite Q in G by congruence. lia.
    + pose proof (V_strong s V o) as Q. rewrite P in Q. rewrite Q in G by congruence. lia.
  - rewrite (V_firing s V o) in G. exact (cur_frames s o (V_cur s V) G).
Qed.

Lemma inst_obj s o : Inv s -> s_inst s = Some o -> exists x, nth_error (s_objs s) o = Some x /\ t_live x = true /\ obj s o = Ok x.
Proof.
  intros V P. pose proof (V_cur s V) as K. unfold cur in K. rewrite P in K. destruct K as (x & E & L & _). exists x. split; [exact E|]. split; [exact L|].
  unfold obj. rewrite E, L. reflexivity.
Qed.

(* A change of the object only: its references, handlers; the event e is not of objects, files and sources *)
Lemma inv_obj s o x x' e n : Inv s -> s_inst s = Some o -> nth_error (s_objs s) o = Some x ->
  t_live x' = true -> t_chan x' = t_chan x -> t_watch x' = t_watch x ->
  (forall p, p <> o -> strong p (e :: s_trace s) = strong p (s_trace s)) ->
  strong o (e :: s_trace s) = strong o (s_trace s) + (t_refs x' - t_refs x) -> 1 <= t_refs x' -> 0 <= strong o (e :: s_trace s) ->
  (forall p, firing p (e :: s_trace s) = firing p (s_trace s)) ->
  (forall p, is_new p e = false /\ is_final p e = false /\ is_open p e = false /\ is_close p e = false /\ is_attach p e = false /\ is_destroy p e = false /\ is_error p e = false /\ is_free p e = false) -> is_bad e = false ->
  Inv (State (s_inst s) (upd (s_objs s) o x') (s_io s) (s_frames s) n (e :: s_trace s)).
Proof.
  intros V P E L C W S1 S2 R1 R2 F N B. pose proof (V_cur s V) as K. unfold cur in K. rewrite P in K. destruct K as (x0 & E0 & L0 & R0 & R00 & S0 & K).
  assert (x0 = x) by congruence. subst x0.
  constructor; cbn [s_inst s_objs s_io s_frames s_trace].
  - unfold cur. cbn [s_inst s_objs s_io s_frames s_trace]. rewrite P. exists x'. split; [exact (nth_upd_eq _ _ _ _ E)|]. split; [exact L|]. split; [lia|]. split; [lia|]. split; [lia|].
    rewrite C, W. exact K.
  - intros p z Z NP. destruct (nth_upd _ _ _ _ _ _ E Z) as [[-> _]|[_ Z']]; [congruence|exact (V_objs s V p z Z' NP)].
  - intros p NP. rewrite S1 by congruence. exact (V_strong s V p NP).
  - intros p. rewrite F. exact (V_firing s V p).
  - intros p z Z. destruct (N p) as (N1 & N2 & _). cbn [number]. rewrite N1, N2, !Z.add_0_l. destruct (nth_upd _ _ _ _ _ _ E Z) as [[-> ->]|[_ Z']].
    + rewrite L. pose proof (V_obj s V o x E) as Q. rewrite L0 in Q. exact Q.
    + exact (V_obj s V p z Z').
  - intros p Lp. rewrite upd_length in Lp. destruct (N p) as (N1 & N2 & _). cbn [number]. rewrite N1, N2, !Z.add_0_l. exact (V_noobj s V p Lp).
  - intros c y Y. destruct (N c) as (_ & _ & N3 & N4 & N5 & N6 & N7 & N8). cbn [number]. rewrite N3, N4, N5, N6, N7, N8, !Z.add_0_l. exact (V_io s V c y Y).
  - intros c Lc. destruct (N c) as (_ & _ & N3 & N4 & N5 & N6 & N7 & N8). cbn [number]. rewrite N3, N4, N5, N6, N7, N8, !Z.add_0_l. exact (V_noio s V c Lc).
  - cbn [number]. rewrite B. exact (V_bad s V).
Qed.

Ltac quiet := intros; cbn; repeat split.

(* The last reference is gone *)
Lemma inv_last s o x e : Inv s -> s_inst s = Some o -> nth_error (s_objs s) o = Some x -> (e = EUnref o \/ e = EEnd o) ->
  t_refs x = 1 -> (e = EUnref o -> s_frames s = []) -> (e = EEnd o -> s_frames s <> []) ->
  strong o (e :: s_trace s) = 0 ->
  match t_chan x with
  | None => Inv (State None (upd (s_objs s) o (Notify 0 None (t_watch x) [] false)) (s_io s) [] (s_next s) (EFinal o :: e :: s_trace s))
  | Some c => exists on run, nth_error (s_io s) c = Some (live_io o on run) /\ t_watch x = (if on then S c else O) /\ (run = true -> on = true) /\
      Inv (State None (upd (s_objs s) o (Notify 0 (Some c) (t_watch x) [] false)) (upd (s_io s) c (Io o false 0 false false false false)) [] (s_next s)
        ((if run then [EFree c; EFinal o] else [EFinal o; EFree c]) ++ EClose c :: (if on then [EDestroy c] else []) ++ e :: s_trace s))
  end.
Proof.
  intros V P E EE R F1 F2 S0. pose proof (V_cur s V) as K. unfold cur in K. rewrite P in K. destruct K as (x0 & E0 & L0 & R0 & R00 & S1 & K).
  assert (x0 = x) by congruence. subst x0.
  assert (SN : forall p, p <> o -> strong p (e :: s_trace s) = strong p (s_trace s)).
  { intros p NP. destruct EE as [->| ->]; cbn [strong]; [|reflexivity]. destruct (Nat.eqb_spec o p); [congruence|lia]. }
  assert (FR : forall p, firing p (e :: s_trace s) = 0).
  { intros p. destruct EE as [->| ->]; cbn [firing]; rewrite (V_firing s V p).
    - rewrite (F1 eq_refl). reflexivity.
    - specialize (F2 eq_refl). destruct (t_chan x) as [c|].
      + destruct K as (on & run & _ & _ & K & _). destruct run; [|congruence]. destruct K as (_ & l & K). rewrite K. cbn [in_frames f_obj]. lia.
      + destruct K as (_ & K & _). congruence. }
  assert (NE : forall f : event -> bool, f (EUnref o) = false -> f (EEnd o) = false -> number f (e :: s_trace s) = number f (s_trace s)).
  { intros f A B. cbn [number]. destruct EE as [->| ->]; [rewrite A|rewrite B]; lia. }
  destruct (t_chan x) as [c|].
  - destruct K as (on & run & I0 & W & K & D). exists on, run. split; [exact I0|]. split; [exact W|].
    split; [destruct run; [tauto|discriminate]|].
    constructor; cbn [s_inst s_objs s_io s_frames s_trace].
    + split; [reflexivity|]. intros d y Y. cbn [s_io] in Y. destruct (nth_upd _ _ _ _ _ _ I0 Y) as [[-> ->]|[ND Y']]; [repeat split|exact (D d y ND Y')].
    + intros p z Z _. destruct (nth_upd _ _ _ _ _ _ E Z) as [[-> ->]|[NP Z']]; [reflexivity|]. apply (V_objs s V p z Z'). congruence.
    + intros p _. replace (strong p ((if run then [EFree c; EFinal o] else [EFinal o; EFree c]) ++ EClose c :: (if on then [EDestroy c] else []) ++ e :: s_trace s)) with (strong p (e :: s_trace s)) by (destruct on, run; reflexivity).
      destruct (Nat.eq_dec p o) as [->|NP]; [exact S0|]. rewrite (SN p NP). apply (V_strong s V p). congruence.
    + intros p. replace (firing p ((if run then [EFree c; EFinal o] else [EFinal o; EFree c]) ++ EClose c :: (if on then [EDestroy c] else []) ++ e :: s_trace s)) with (firing p (e :: s_trace s)) by (destruct on, run; reflexivity).
      exact (FR p).
    + intros p z Z. replace (number (is_new p) ((if run then [EFree c; EFinal o] else [EFinal o; EFree c]) ++ EClose c :: (if on then [EDestroy c] else []) ++ e :: s_trace s)) with (number (is_new p) (e :: s_trace s)) by (destruct on, run; reflexivity).
      replace (number (is_final p) ((if run then [EFree c; EFinal o] else [EFinal o; EFree c]) ++ EClose c :: (if on then [EDestroy c] else []) ++ e :: s_trace s)) with (b2z (Nat.eqb o p) + number (is_final p) (e :: s_trace s)) by (destruct on, run; reflexivity).
      rewrite !NE by reflexivity. destruct (nth_upd _ _ _ _ _ _ E Z) as [[-> ->]|[NP Z']].
      * rewrite Nat.eqb_refl. cbn [t_live negb b2z]. destruct (V_obj s V o x E) as [A B]. rewrite L0 in B. cbn [negb b2z] in B. lia.
      * destruct (Nat.eqb_spec o p); [congruence|]. exact (V_obj s V p z Z').
    + intros p Lp. rewrite upd_length in Lp. pose proof (nth_len _ _ _ E).
      replace (number (is_new p) ((if run then [EFree c; EFinal o] else [EFinal o; EFree c]) ++ EClose c :: (if on then [EDestroy c] else []) ++ e :: s_trace s)) with (number (is_new p) (e :: s_trace s)) by (destruct on, run; reflexivity).
      replace (number (is_final p) ((if run then [EFree c; EFinal o] else [EFinal o; EFree c]) ++ EClose c :: (if on then [EDestroy c] else []) ++ e :: s_trace s)) with (b2z (Nat.eqb o p) + number (is_final p) (e :: s_trace s)) by (destruct on, run; reflexivity).
      rewrite !NE by reflexivity. destruct (Nat.eqb_spec o p); [lia|]. exact (V_noobj s V p Lp).
    + intros d y Y.
      replace (number (is_open d) ((if run then [EFree c; EFinal o] else [EFinal o; EFree c]) ++ EClose c :: (if on then [EDestroy c] else []) ++ e :: s_trace s)) with (number (is_open d) (e :: s_trace s)) by (destruct on, run; reflexivity).
      replace (number (is_attach d) ((if run then [EFree c; EFinal o] else [EFinal o; EFree c]) ++ EClose c :: (if on then [EDestroy c] else []) ++ e :: s_trace s)) with (number (is_attach d) (e :: s_trace s)) by (destruct on, run; reflexivity).
      replace (number (is_free d) ((if run then [EFree c; EFinal o] else [EFinal o; EFree c]) ++ EClose c :: (if on then [EDestroy c] else []) ++ e :: s_trace s)) with (b2z (Nat.eqb c d) + number (is_free d) (e :: s_trace s)) by (destruct on, run; reflexivity).
      replace (number (is_error d) ((if run then [EFree c; EFinal o] else [EFinal o; EFree c]) ++ EClose c :: (if on then [EDestroy c] else []) ++ e :: s_trace s)) with (number (is_error d) (e :: s_trace s)) by (destruct on, run; reflexivity).
      replace (number (is_close d) ((if run then [EFree c; EFinal o] else [EFinal o; EFree c]) ++ EClose c :: (if on then [EDestroy c] else []) ++ e :: s_trace s)) with (b2z (Nat.eqb c d) + number (is_close d) (e :: s_trace s)) by (destruct on, run; reflexivity).
      replace (number (is_destroy d) ((if run then [EFree c; EFinal o] else [EFinal o; EFree c]) ++ EClose c :: (if on then [EDestroy c] else []) ++ e :: s_trace s)) with (b2z (on && Nat.eqb c d) + number (is_destroy d) (e :: s_trace s)) by (destruct on, run; reflexivity).
      rewrite !NE by reflexivity. destruct (nth_upd _ _ _ _ _ _ I0 Y) as [[-> ->]|[ND Y']].
      * rewrite Nat.eqb_refl, andb_true_r. cbn [i_open i_on i_live negb]. destruct (V_io s V c _ I0) as (A1 & A2 & A3 & A4 & A5 & A6). unfold live_io in A2, A4, A6. cbn [i_open i_on i_live negb b2z] in A2, A4, A6.
        destruct on; cbn [negb b2z] in *; (repeat split; try lia; intros; discriminate).
      * destruct (Nat.eqb_spec c d); [congruence|]. rewrite andb_false_r. exact (V_io s V d y Y').
    + intros d Ld. rewrite upd_length in Ld. pose proof (nth_len _ _ _ I0).
      replace (number (is_open d) ((if run then [EFree c; EFinal o] else [EFinal o; EFree c]) ++ EClose c :: (if on then [EDestroy c] else []) ++ e :: s_trace s)) with (number (is_open d) (e :: s_trace s)) by (destruct on, run; reflexivity).
      replace (number (is_attach d) ((if run then [EFree c; EFinal o] else [EFinal o; EFree c]) ++ EClose c :: (if on then [EDestroy c] else []) ++ e :: s_trace s)) with (number (is_attach d) (e :: s_trace s)) by (destruct on, run; reflexivity).
      replace (number (is_free d) ((if run then [EFree c; EFinal o] else [EFinal o; EFree c]) ++ EClose c :: (if on then [EDestroy c] else []) ++ e :: s_trace s)) with (b2z (Nat.eqb c d) + number (is_free d) (e :: s_trace s)) by (destruct on, run; reflexivity).
      replace (number (is_error d) ((if run then [EFree c; EFinal o] else [EFinal o; EFree c]) ++ EClose c :: (if on then [EDestroy c] else []) ++ e :: s_trace s)) with (number (is_error d) (e :: s_trace s)) by (destruct on, run; reflexivity).
      replace (number (is_close d) ((if run then [EFree c; EFinal o] else [EFinal o; EFree c]) ++ EClose c :: (if on then [EDestroy c] else []) ++ e :: s_trace s)) with (b2z (Nat.eqb c d) + number (is_close d) (e :: s_trace s)) by (destruct on, run; reflexivity).
      replace (number (is_destroy d) ((if run then [EFree c; EFinal o] else [EFinal o; EFree c]) ++ EClose c :: (if on then [EDestroy c] else []) ++ e :: s_trace s)) with (b2z (on && Nat.eqb c d) + number (is_destroy d) (e :: s_trace s)) by (destruct on, run; reflexivity).
      rewrite !NE by reflexivity. destruct (Nat.eqb_spec c d); [lia|]. rewrite andb_false_r. exact (V_noio s V d Ld).
    + replace (number is_bad ((if run then [EFree c; EFinal o] else [EFinal o; EFree c]) ++ EClose c :: (if on then [EDestroy c] else []) ++ e :: s_trace s)) with (number is_bad (e :: s_trace s)) by (destruct on, run; reflexivity).
      rewrite !NE by reflexivity. exact (V_bad s V).
  - destruct K as (W & K & D).
    assert (NE2 : forall f : event -> bool, f (EUnref o) = false -> f (EEnd o) = false -> f (EFinal o) = false -> number f (EFinal o :: e :: s_trace s) = number f (s_trace s)).
    { intros f A B C. change (number f (EFinal o :: e :: s_trace s)) with ((if f (EFinal o) then 1 else 0) + number f (e :: s_trace s)). rewrite C, (NE f A B). lia. }
    constructor; cbn [s_inst s_objs s_io s_frames s_trace].
    + split; [reflexivity|exact D].
    + intros p z Z _. destruct (nth_upd _ _ _ _ _ _ E Z) as [[-> ->]|[NP Z']]; [reflexivity|]. apply (V_objs s V p z Z'). congruence.
    + intros p _. change (strong p (EFinal o :: e :: s_trace s)) with (strong p (e :: s_trace s)).
      destruct (Nat.eq_dec p o) as [->|NP]; [exact S0|]. rewrite (SN p NP). apply (V_strong s V p). congruence.
    + intros p. exact (FR p).
    + intros p z Z. rewrite (NE2 (is_new p)) by reflexivity.
      change (number (is_final p) (EFinal o :: e :: s_trace s)) with (b2z (Nat.eqb o p) + number (is_final p) (e :: s_trace s)).
      rewrite !NE by reflexivity. destruct (nth_upd _ _ _ _ _ _ E Z) as [[-> ->]|[NP Z']].
      * rewrite Nat.eqb_refl. cbn [t_live negb b2z]. destruct (V_obj s V o x E) as [A B]. rewrite L0 in B. cbn [negb b2z] in B. lia.
      * destruct (Nat.eqb_spec o p); [congruence|]. exact (V_obj s V p z Z').
    + intros p Lp. rewrite upd_length in Lp. pose proof (nth_len _ _ _ E). rewrite (NE2 (is_new p)) by reflexivity.
      change (number (is_final p) (EFinal o :: e :: s_trace s)) with (b2z (Nat.eqb o p) + number (is_final p) (e :: s_trace s)).
      rewrite !NE by reflexivity. destruct (Nat.eqb_spec o p); [lia|]. exact (V_noobj s V p Lp).
    + intros d y Y. rewrite !NE2 by reflexivity. exact (V_io s V d y Y).
    + intros d Ld. rewrite !NE2 by reflexivity. exact (V_noio s V d Ld).
    + rewrite !NE2 by reflexivity. exact (V_bad s V).
Qed.

Lemma ready_inst s c : Inv s -> ready s c -> exists o x, s_inst s = Some o /\ nth_error (s_objs s) o = Some x /\ t_live x = true /\ t_chan x = Some c /\
  nth_error (s_io s) c = Some (live_io o true false) /\ t_watch x = S c /\ s_frames s = [] /\
  t_refs x = strong o (s_trace s) /\ 1 <= strong o (s_trace s) /\ (forall d y, d <> c -> nth_error (s_io s) d = Some y -> dead y).
Proof.
  intros V (y & Y & ON & RUN). pose proof (V_cur s V) as K. unfold cur in K. destruct (s_inst s) as [o|] eqn:P.
  - destruct K as (x & E & L & R & R0 & S0 & K). exists o, x. destruct (t_chan x) as [d|] eqn:C.
    + destruct K as (on & run & I0 & W & K & D). destruct (Nat.eq_dec c d) as [->|N].
      * rewrite I0 in Y. injection Y as <-. unfold live_io in ON, RUN. cbn [i_on i_running] in ON, RUN. subst on run. rewrite K in R. cbn [length] in R.
        split; [reflexivity|]. split; [exact E|]. split; [exact L|]. split; [reflexivity|]. split; [exact I0|]. split; [exact W|]. split; [exact K|]. split; [lia|]. split; [lia|exact D].
      * destruct (D c y N Y) as (_ & _ & D1 & _). congruence.
    + destruct K as (_ & _ & K). destruct (K c y Y) as (_ & _ & D1 & _). congruence.
  - destruct K as [_ K]. destruct (K c y Y) as (_ & _ & D1 & _). congruence.
Qed.

Lemma inv_new s ok : Inv s -> exists s', time_notify_new s ok = Ok s' /\ Inv s'.
Proof.
  intros V. unfold time_notify_new. destruct (s_inst s) as [o|] eqn:P.
  - destruct (inst_obj s o V P) as (x & E & L & O). unfold ref. rewrite O. cbn [bind]. eexists. split; [reflexivity|].
    pose proof (V_cur s V) as K. unfold cur in K. rewrite P in K. destruct K as (x0 & E0 & _ & R0 & R1 & S0 & _). assert (x0 = x) by congruence. subst x0.
    apply (inv_obj s o x (set_refs x (t_refs x + 1)) (EGot o) (s_next s) V P E L); try reflexivity; try (quiet; fail).
    + intros p NP. cbn [strong]. destruct (Nat.eqb_spec o p); [congruence|reflexivity].
    + cbn [strong set_refs t_refs]. rewrite Nat.eqb_refl. lia.
    + cbn [set_refs t_refs]. lia.
    + cbn [strong]. rewrite Nat.eqb_refl. lia.
  - eexists. split; [reflexivity|]. pose proof (V_cur s V) as K. unfold cur in K. rewrite P in K. destruct K as [FR D].
    set (o := length (s_objs s)). set (c := length (s_io s)).
    assert (S0 : forall p, strong p (s_trace s) = 0) by (intros p; apply (V_strong s V p); congruence).
    unfold create. fold o c. destruct ok; unfold set_inst, emit; cbn [s_inst s_objs s_io s_frames s_next s_trace]; constructor; cbn [s_inst s_objs s_io s_frames s_next s_trace].
    + unfold cur. cbn [s_inst s_objs s_io s_frames s_next s_trace]. eexists. split; [unfold o; rewrite nth_error_app2, Nat.sub_diag by lia; reflexivity|]. cbn [t_live t_refs t_chan t_watch strong].
      rewrite Nat.eqb_refl, FR, (S0 o). cbn [length]. split; [reflexivity|]. split; [lia|]. split; [lia|]. split; [lia|]. exists true, false.
      split; [unfold c; rewrite nth_error_app2, Nat.sub_diag by lia; reflexivity|]. split; [reflexivity|]. split; [reflexivity|].
      intros d y ND Y. destruct (nth_snoc _ _ _ _ Y) as [[-> _]|[_ Y']]; [unfold c in ND; congruence|exact (D d y Y')].
    + intros p z Z NP. destruct (nth_snoc _ _ _ _ Z) as [[-> _]|[_ Z']]; [unfold o in NP; congruence|]. apply (V_objs s V p z Z'). congruence.
    + intros p NP. cbn [strong]. destruct (Nat.eqb_spec o p); [congruence|]. rewrite (S0 p). reflexivity.
    + intros p. exact (V_firing s V p).
    + intros p z Z. cbn [number is_new is_final]. destruct (nth_snoc _ _ _ _ Z) as [[-> ->]|[NP Z']].
      * destruct (V_noobj s V (length (s_objs s))) as [A B]; [lia|]. unfold o. rewrite Nat.eqb_refl. rewrite A, B. cbn [t_live negb b2z]. lia.
      * destruct (Nat.eqb_spec o p); [unfold o in *; congruence|]. exact (V_obj s V p z Z').
    + intros p Lp. rewrite app_length in Lp. cbn [length] in Lp. cbn [number is_new is_final]. destruct (Nat.eqb_spec o p); [unfold o in *; lia|]. apply (V_noobj s V p). lia.
    + intros d y Y. cbn [number is_open is_close is_attach is_destroy is_error is_free]. destruct (nth_snoc _ _ _ _ Y) as [[-> ->]|[ND Y']].
      * destruct (V_noio s V (length (s_io s))) as (A1 & A2 & A3 & A4 & A5 & A6); [lia|]. unfold c. rewrite Nat.eqb_refl, A1, A2, A3, A4, A5, A6. cbn [i_open i_on i_live negb b2z]. lia.
      * destruct (Nat.eqb_spec c d); [unfold c in *; congruence|]. exact (V_io s V d y Y').
    + intros d Ld. rewrite app_length in Ld. cbn [length] in Ld. cbn [number is_open is_close is_attach is_destroy is_error is_free]. destruct (Nat.eqb_spec c d); [unfold c in *; lia|]. apply (V_noio s V d). lia.
    + exact (V_bad s V).
    + unfold cur. cbn [s_inst s_objs s_io s_frames s_next s_trace]. eexists. split; [unfold o; rewrite nth_error_app2, Nat.sub_diag by lia; reflexivity|]. cbn [t_live t_refs t_chan t_watch strong].
      rewrite Nat.eqb_refl, FR, (S0 o). cbn [length]. split; [reflexivity|]. split; [lia|]. split; [lia|]. split; [lia|]. split; [reflexivity|]. split; [reflexivity|exact D].
    + intros p z Z NP. destruct (nth_snoc _ _ _ _ Z) as [[-> _]|[_ Z']]; [unfold o in NP; congruence|]. apply (V_objs s V p z Z'). congruence.
    + intros p NP. cbn [strong]. destruct (Nat.eqb_spec o p); [congruence|]. rewrite (S0 p). reflexivity.
    + intros p. exact (V_firing s V p).
    + intros p z Z. cbn [number is_new is_final]. destruct (nth_snoc _ _ _ _ Z) as [[-> ->]|[NP Z']].
      * destruct (V_noobj s V (length (s_objs s))) as [A B]; [lia|]. unfold o. rewrite Nat.eqb_refl. rewrite A, B. cbn [t_live negb b2z]. lia.
      * destruct (Nat.eqb_spec o p); [unfold o in *; congruence|]. exact (V_obj s V p z Z').
    + intros p Lp. rewrite app_length in Lp. cbn [length] in Lp. cbn [number is_new is_final]. destruct (Nat.eqb_spec o p); [unfold o in *; lia|]. apply (V_noobj s V p). lia.
    + exact (V_io s V).
    + exact (V_noio s V).
    + exact (V_bad s V).
Qed.

Lemma inv_unref s o : Inv s -> strong o (s_trace s) > 0 -> exists s', unref (emit s (EUnref o)) o = Ok s' /\ Inv s' /\
  (s_trace s' = EUnref o :: s_trace s /\ s_inst s' = Some o /\ (strong o (s_trace s) > 1 \/ firing o (s_trace s) > 0) \/
   s_inst s' = None /\ strong o (s_trace s) = 1 /\ firing o (s_trace s) = 0 /\ (exists l, s_trace s' = EFinal o :: l ++ EUnref o :: s_trace s /\ forall e, In e l -> match e with EClose _ | EDestroy _ | EFree _ => True | _ => False end)).
Proof.
  intros V G. pose proof (usable_inst s o V (or_introl G)) as P. destruct (inst_obj s o V P) as (x & E & L & O).
  pose proof (V_cur s V) as K. unfold cur in K. rewrite P in K. destruct K as (x0 & E0 & _ & R0 & R1 & S0 & K). assert (x0 = x) by congruence. subst x0.
  assert (FO : firing o (s_trace s) = Z.of_nat (length (s_frames s))).
  { rewrite (V_firing s V o). destruct (t_chan x) as [c|].
    - destruct K as (on & run & _ & _ & K & _). destruct run; [destruct K as (_ & l & K)|]; rewrite K; cbn [in_frames f_obj length]; rewrite ?Nat.eqb_refl; lia.
    - destruct K as (_ & K & _). rewrite K. reflexivity. }
  unfold unref. change (obj (emit s (EUnref o)) o) with (obj s o). rewrite O. cbn [bind]. destruct (Z.eqb_spec (t_refs x) 1) as [R|R].
  - assert (FR : s_frames s = []) by (destruct (s_frames s); [reflexivity|cbn [length] in R0; lia]).
    assert (SO : strong o (EUnref o :: s_trace s) = 0) by (cbn [strong]; rewrite Nat.eqb_refl, FR in *; cbn [length] in *; lia).
    assert (SO1 : strong o (s_trace s) = 1) by (rewrite FR in R0; cbn [length] in R0; lia).
    assert (FO0 : firing o (s_trace s) = 0) by (rewrite FO, FR; reflexivity).
    pose proof (inv_last s o x (EUnref o) V P E (or_introl eq_refl) R (fun _ => FR) (fun H => ltac:(discriminate H)) SO) as Q.
    cbn [emit s_inst]. rewrite P, Nat.eqb_refl. destruct (t_chan x) as [c|] eqn:C.
    + destruct Q as (on & run & I0 & W & RO & Q). unfold set_inst. cbn [emit s_inst s_objs s_io s_frames s_next s_trace].
      rewrite (finalize_some (State None (s_objs s) (s_io s) (s_frames s) (s_next s) (EUnref o :: s_trace s)) o x c on run E L C I0 W RO).
      cbn [s_inst s_objs s_io s_frames s_next s_trace]. assert (run = false).
      { destruct K as (on' & run' & I1 & _ & K & _). rewrite I0 in I1. unfold live_io in I1. assert (run' = run) by congruence. subst run'. destruct run; [|reflexivity]. destruct K as (_ & l & K). congruence. }
      subst run. rewrite FR. eexists. split; [reflexivity|]. split; [exact Q|]. right. split; [reflexivity|]. split; [exact SO1|]. split; [exact FO0|].
      exists (EFree c :: EClose c :: if on then [EDestroy c] else []). split; [destruct on; reflexivity|]. intros e [<-|[<-|M]]; [exact I|exact I|]. destruct on; [destruct M as [<-|[]]; exact I|destruct M].
    + unfold set_inst. cbn [emit s_inst s_objs s_io s_frames s_next s_trace].
      rewrite (finalize_none (State None (s_objs s) (s_io s) (s_frames s) (s_next s) (EUnref o :: s_trace s)) o x E L C). cbn [s_inst s_objs s_io s_frames s_next s_trace]. rewrite FR.
      eexists. split; [reflexivity|]. split; [exact Q|]. right. split; [reflexivity|]. split; [exact SO1|]. split; [exact FO0|]. exists []. split; [reflexivity|]. intros e [].
  - eexists. split; [reflexivity|]. split; [|left; split; [reflexivity|]; split; [exact P|]; rewrite FO; lia].
    apply (inv_obj s o x (set_refs x (t_refs x - 1)) (EUnref o) (s_next s) V P E L); try reflexivity; try (quiet; fail).
    + intros p NP. cbn [strong]. destruct (Nat.eqb_spec o p); [congruence|lia].
    + cbn [strong set_refs t_refs]. rewrite Nat.eqb_refl. lia.
    + cbn [set_refs t_refs]. lia.
    + cbn [strong]. rewrite Nat.eqb_refl. lia.
Qed.

Lemma inv_error s c : Inv s -> ready s c -> exists s', callback_error s c = Ok s' /\ Inv s'.
Proof.
  intros V RD. destruct (ready_inst s c V RD) as (o & x & P & E & L & C & I0 & W & FR & R & R1 & D).
  unfold callback_error, source. rewrite I0. cbn [bind live_io i_obj i_open i_refs i_close i_live i_on i_running]. unfold obj. rewrite E, L. cbn [bind]. unfold set_watch.
  sim I0. unfold set_io, emit, set_frames, set_obj. sim I0. eexists. split; [reflexivity|].
  constructor; cbn [s_inst s_objs s_io s_frames s_next s_trace].
  - unfold cur. cbn [s_inst s_objs s_io s_frames s_next s_trace]. rewrite P. eexists. split; [exact (nth_upd_eq _ _ _ _ E)|]. cbn [t_live t_refs t_chan t_watch strong]. rewrite C, FR. cbn [length].
    split; [exact L|]. split; [lia|]. split; [lia|]. split; [lia|]. exists false, false. split; [exact (nth_upd_eq _ _ _ _ I0)|]. split; [reflexivity|]. split; [reflexivity|].
    intros d y ND Y. rewrite nth_error_upd_ne in Y by congruence. exact (D d y ND Y).
  - intros p z Z NP. destruct (nth_upd _ _ _ _ _ _ E Z) as [[-> _]|[_ Z']]; [congruence|exact (V_objs s V p z Z' NP)].
  - intros p NP. exact (V_strong s V p NP).
  - intros p. exact (V_firing s V p).
  - intros p z Z. cbn [number is_new is_final]. rewrite !Z.add_0_l. destruct (nth_upd _ _ _ _ _ _ E Z) as [[-> ->]|[_ Z']]; [exact (V_obj s V o x E)|exact (V_obj s V p z Z')].
  - intros p Lp. rewrite upd_length in Lp. exact (V_noobj s V p Lp).
  - intros d y Y. cbn [number is_open is_close is_attach is_destroy is_error is_free]. destruct (nth_upd _ _ _ _ _ _ I0 Y) as [[-> ->]|[ND Y']].
    + destruct (V_io s V c _ I0) as (A1 & A2 & A3 & A4 & A5 & A6). unfold live_io in A2, A4, A5, A6. cbn [i_open i_on i_live negb b2z] in *. specialize (A5 eq_refl). rewrite Nat.eqb_refl. lia.
    + destruct (Nat.eqb_spec c d); [congruence|]. exact (V_io s V d y Y').
  - intros d Ld. rewrite upd_length in Ld. cbn [number is_open is_close is_attach is_destroy is_error is_free]. pose proof (nth_len _ _ _ I0). destruct (Nat.eqb_spec c d); [lia|]. exact (V_noio s V d Ld).
  - exact (V_bad s V).
Qed.

Lemma inv_begin s c : Inv s -> ready s c -> exists s' o x, callback_begin s c = Ok s' /\ Inv s' /\ s_inst s = Some o /\ nth_error (s_objs s) o = Some x /\
  s_frames s = [] /\ s_frames s' = [Frame c o (t_handlers x)] /\ s_trace s' = EFire o :: s_trace s /\ (forall p z, nth_error (s_objs s') p = Some z -> exists z0, nth_error (s_objs s) p = Some z0 /\ t_handlers z = t_handlers z0 /\ t_live z = t_live z0) /\
  s_inst s' = Some o /\ s_next s' = s_next s.
Proof.
  intros V RD. destruct (ready_inst s c V RD) as (o & x & P & E & L & C & I0 & W & FR & R & R1 & D).
  unfold callback_begin, source. rewrite I0. cbn [bind live_io i_obj i_open i_refs i_close i_live i_on i_running]. unfold ref, obj. rewrite E, L. cbn [bind]. unfold set_obj. cbn [s_objs]. rewrite (nth_upd_eq _ _ _ _ E).
  unfold set_refs. cbn [t_live t_chan t_handlers]. rewrite L. cbn [bind t_chan]. rewrite C. sim I0. unfold set_io, emit, set_frames, set_obj. sim I0. rewrite FR.
  eexists. exists o, x. split; [reflexivity|]. cbn [s_frames s_trace s_objs s_inst t_handlers s_next]. split; [|split; [exact P|split; [exact E|split; [reflexivity|split; [reflexivity|split; [reflexivity|split; [|split; [exact P|reflexivity]]]]]]]].
  2:{ intros p z Z. destruct (nth_upd _ _ _ _ _ _ E Z) as [[-> ->]|[_ Z']]; [exists x; auto|exists z; auto]. }
  constructor; cbn [s_inst s_objs s_io s_frames s_next s_trace].
  - unfold cur. cbn [s_inst s_objs s_io s_frames s_next s_trace]. rewrite P. eexists. split; [exact (nth_upd_eq _ _ _ _ E)|]. cbn [t_live t_refs t_chan t_watch strong length].
    split; [reflexivity|]. split; [lia|]. split; [lia|]. split; [lia|]. exists true, true. split; [exact (nth_upd_eq _ _ _ _ I0)|]. split; [exact W|]. split; [split; [reflexivity|]; eexists; reflexivity|].
    intros d y ND Y. rewrite nth_error_upd_ne in Y by congruence. exact (D d y ND Y).
  - intros p z Z NP. destruct (nth_upd _ _ _ _ _ _ E Z) as [[-> _]|[_ Z']]; [congruence|exact (V_objs s V p z Z' NP)].
  - intros p NP. exact (V_strong s V p NP).
  - intros p. cbn [firing in_frames f_obj]. rewrite (V_firing s V p), FR. reflexivity.
  - intros p z Z. cbn [number is_new is_final]. rewrite !Z.add_0_l. destruct (nth_upd _ _ _ _ _ _ E Z) as [[-> ->]|[_ Z']]; [|exact (V_obj s V p z Z')].
    pose proof (V_obj s V o x E) as Q. rewrite L in Q. exact Q.
  - intros p Lp. rewrite upd_length in Lp. exact (V_noobj s V p Lp).
  - intros d y Y. cbn [number is_open is_close is_attach is_destroy is_error is_free]. destruct (nth_upd _ _ _ _ _ _ I0 Y) as [[-> ->]|[ND Y']]; [exact (V_io s V c _ I0)|exact (V_io s V d y Y')].
  - intros d Ld. rewrite upd_length in Ld. exact (V_noio s V d Ld).
  - exact (V_bad s V).
Qed.

(* What the frame of a running callback is *)
Lemma frame_inst s c o l fs : Inv s -> s_frames s = Frame c o l :: fs -> fs = [] /\ s_inst s = Some o /\ exists x, nth_error (s_objs s) o = Some x /\ t_live x = true /\ t_chan x = Some c /\
  nth_error (s_io s) c = Some (live_io o true true) /\ t_watch x = S c /\ t_refs x = strong o (s_trace s) + 1 /\ 0 <= strong o (s_trace s) /\ (forall d y, d <> c -> nth_error (s_io s) d = Some y -> dead y).
Proof.
  intros V F. pose proof (V_cur s V) as K. unfold cur in K. destruct (s_inst s) as [p|].
  - destruct K as (x & E & L & R & R1 & S0 & K). destruct (t_chan x) as [d|] eqn:C.
    + destruct K as (on & run & I0 & W & K & D). destruct run; [|congruence]. destruct K as (-> & m & K). rewrite F in K. injection K as -> -> -> ->.
      rewrite F in R. cbn [length] in R. split; [reflexivity|]. split; [reflexivity|]. exists x. split; [exact E|]. split; [exact L|]. split; [exact C|]. split; [exact I0|]. split; [exact W|]. split; [lia|]. split; [lia|exact D].
    + destruct K as (_ & K & _). congruence.
  - destruct K. congruence.
Qed.

Lemma inv_emission s : Inv s -> exists s', emission s = Ok s' /\ Inv s' /\ s_objs s' = s_objs s /\ s_next s' = s_next s /\
  match s_frames s with
  | Frame c o (h :: l) :: _ => s_frames s' = [Frame c o l] /\ exists x, nth_error (s_objs s) o = Some x /\
      s_trace s' = (if existsb (Nat.eqb h) (t_handlers x) then [ECall o h] else []) ++ s_trace s
  | _ => s' = s
  end.
Proof.
  intros V. unfold emission. destruct (s_frames s) as [|[c o [|h l]] fs] eqn:F; [exists s; auto|exists s; auto|].
  destruct (frame_inst s c o (h :: l) fs V F) as (-> & P & x & E & L & C & I0 & W & R & S0 & D). unfold obj. rewrite E, L. cbn [bind].
  exists (State (s_inst s) (s_objs s) (s_io s) [Frame c o l] (s_next s) ((if existsb (Nat.eqb h) (t_handlers x) then [ECall o h] else []) ++ s_trace s)).
  split; [destruct (existsb (Nat.eqb h) (t_handlers x)); reflexivity|]. cbn [s_objs s_frames s_trace s_next]. split; [|split; [reflexivity|split; [reflexivity|split; [reflexivity|exists x; auto]]]].
  set (e := if existsb (Nat.eqb h) (t_handlers x) then [ECall o h] else []).
  assert (N : forall f : event -> bool, f (ECall o h) = false -> number f (e ++ s_trace s) = number f (s_trace s)).
  { intros f A. unfold e. destruct (existsb (Nat.eqb h) (t_handlers x)); cbn [app number]; [rewrite A; lia|reflexivity]. }
  assert (S1 : forall p, strong p (e ++ s_trace s) = strong p (s_trace s)) by (intros p; unfold e; destruct (existsb (Nat.eqb h) (t_handlers x)); reflexivity).
  assert (F1 : forall p, firing p (e ++ s_trace s) = firing p (s_trace s)) by (intros p; unfold e; destruct (existsb (Nat.eqb h) (t_handlers x)); reflexivity).
  constructor; cbn [s_inst s_objs s_io s_frames s_next s_trace].
  - unfold cur. cbn [s_inst s_objs s_io s_frames s_next s_trace]. rewrite P. exists x. rewrite S1, C. cbn [length]. split; [exact E|]. split; [exact L|]. split; [lia|]. split; [lia|]. split; [lia|].
    exists true, true. split; [exact I0|]. split; [exact W|]. split; [split; [reflexivity|]; exists l; reflexivity|exact D].
  - exact (V_objs s V).
  - intros p NP. rewrite S1. exact (V_strong s V p NP).
  - intros p. rewrite F1, (V_firing s V p), F. reflexivity.
  - intros p z Z. rewrite !N by reflexivity. exact (V_obj s V p z Z).
  - intros p Lp. rewrite !N by reflexivity. exact (V_noobj s V p Lp).
  - intros d y Y. rewrite !N by reflexivity. exact (V_io s V d y Y).
  - intros d Ld. rewrite !N by reflexivity. exact (V_noio s V d Ld).
  - rewrite N by reflexivity. exact (V_bad s V).
Qed.

Lemma inv_end s : Inv s -> exists s', callback_end s = Ok s' /\ Inv s' /\ s_next s' = s_next s /\
  match s_frames s with
  | Frame c o [] :: _ => s_frames s' = [] /\
     (strong o (s_trace s) > 0 /\ s_inst s' = Some o /\ s_trace s' = EEnd o :: s_trace s \/
      strong o (s_trace s) = 0 /\ s_inst s' = None /\ s_trace s' = EFree c :: EFinal o :: EClose c :: EDestroy c :: EEnd o :: s_trace s) /\
     (forall p z, nth_error (s_objs s') p = Some z -> t_live z = true -> exists z0, nth_error (s_objs s) p = Some z0 /\ t_handlers z = t_handlers z0)
  | _ => s' = s
  end.
Proof.
  intros V. unfold callback_end. destruct (s_frames s) as [|[c o [|h l]] fs] eqn:F; [exists s; auto| |exists s; auto].
  destruct (frame_inst s c o [] fs V F) as (-> & P & x & E & L & C & I0 & W & R & S0 & D). unfold unref. unfold obj at 1. cbn [emit set_frames s_objs]. rewrite E, L. cbn [bind].
  destruct (Z.eqb_spec (t_refs x) 1) as [R1|R1].
  - assert (SO : strong o (EEnd o :: s_trace s) = 0) by (cbn [strong]; lia).
    assert (FN : EEnd o = EEnd o -> s_frames s <> []) by (intros _; congruence).
    pose proof (inv_last s o x (EEnd o) V P E (or_intror eq_refl) R1 (fun H => ltac:(discriminate H)) FN SO) as Q. rewrite C in Q.
    destruct Q as (on & run & I1 & W1 & RO & Q). rewrite I0 in I1. unfold live_io in I1. assert (on = true /\ run = true) as [-> ->] by (split; congruence).
    unfold set_inst, emit, set_frames. cbn [s_inst s_objs s_io s_frames s_next s_trace]. rewrite P, Nat.eqb_refl.
    rewrite (finalize_some (State None (s_objs s) (s_io s) [] (s_next s) (EEnd o :: s_trace s)) o x c true true E L C I0 W (fun _ => eq_refl)).
    cbn [bind s_inst s_objs s_io s_frames s_next s_trace]. sim I0. unfold set_io, emit, set_frames, set_obj. sim I0.
    eexists. split; [reflexivity|]. split; [exact Q|]. split; [reflexivity|]. split; [reflexivity|]. split; [right; split; [lia|]; split; reflexivity|].
    intros p z Z LZ. cbn [s_objs] in Z. destruct (nth_upd _ _ _ _ _ _ E Z) as [[-> ->]|[_ Z']]; [discriminate|exists z; auto].
  - unfold set_obj, emit, set_frames. cbn [bind s_inst s_objs s_io s_frames s_next s_trace]. sim I0. unfold set_io, emit, set_frames, set_obj. sim I0.
    eexists. split; [reflexivity|]. cbn [s_frames s_trace s_inst s_objs s_next]. split; [|split; [reflexivity|split; [reflexivity|split; [left; split; [lia|]; split; [exact P|reflexivity]|]]]].
    2:{ intros p z Z LZ. destruct (nth_upd _ _ _ _ _ _ E Z) as [[-> ->]|[_ Z']]; [exists x; auto|exists z; auto]. }
    constructor; cbn [s_inst s_objs s_io s_frames s_next s_trace].
    + unfold cur. cbn [s_inst s_objs s_io s_frames s_next s_trace]. rewrite P. eexists. split; [exact (nth_upd_eq _ _ _ _ E)|]. cbn [set_refs t_live t_refs t_chan t_watch strong length].
      split; [exact L|]. split; [lia|]. split; [lia|]. split; [lia|]. rewrite C. exists true, false. split; [exact (nth_upd_eq _ _ _ _ I0)|]. split; [exact W|]. split; [reflexivity|].
      intros d y ND Y. rewrite nth_error_upd_ne in Y by congruence. exact (D d y ND Y).
    + intros p z Z NP. destruct (nth_upd _ _ _ _ _ _ E Z) as [[-> _]|[_ Z']]; [congruence|exact (V_objs s V p z Z' NP)].
    + intros p NP. exact (V_strong s V p NP).
    + intros p. cbn [firing in_frames]. rewrite (V_firing s V p), F. cbn [in_frames f_obj]. lia.
    + intros p z Z. cbn [number is_new is_final]. rewrite !Z.add_0_l. destruct (nth_upd _ _ _ _ _ _ E Z) as [[-> ->]|[_ Z']]; [exact (V_obj s V o x E)|exact (V_obj s V p z Z')].
    + intros p Lp. rewrite upd_length in Lp. exact (V_noobj s V p Lp).
    + intros d y Y. cbn [number is_open is_close is_attach is_destroy is_error is_free]. destruct (nth_upd _ _ _ _ _ _ I0 Y) as [[-> ->]|[ND Y']]; [exact (V_io s V c _ I0)|exact (V_io s V d y Y')].
    + intros d Ld. rewrite upd_length in Ld. exact (V_noio s V d Ld).
    + exact (V_bad s V).
Qed.

Lemma inv_step s a : Inv s -> fair s a -> exists s', step s a = Ok s' /\ Inv s'.
Proof.
  intros V F. destruct a as [ok|o|o|o|o h|c|c| |]; cbn [step fair] in *.
  - exact (inv_new s ok V).
  - unfold time_notify_ref. destruct o as [o|]; [|exists s; auto]. pose proof (usable_inst s o V F) as P. destruct (inst_obj s o V P) as (x & E & L & O).
    pose proof (V_cur s V) as K. unfold cur in K. rewrite P in K. destruct K as (x0 & E0 & _ & R0 & R1 & S0 & _). assert (x0 = x) by congruence. subst x0.
    unfold ref. rewrite O. cbn [bind]. eexists. split; [reflexivity|].
    apply (inv_obj s o x (set_refs x (t_refs x + 1)) (ERef o) (s_next s) V P E L); try reflexivity; try (quiet; fail).
    + intros p NP. cbn [strong]. destruct (Nat.eqb_spec o p); [congruence|reflexivity].
    + cbn [strong set_refs t_refs]. rewrite Nat.eqb_refl. lia.
    + cbn [set_refs t_refs]. lia.
    + cbn [strong]. rewrite Nat.eqb_refl. lia.
  - unfold time_notify_unref. destruct o as [o|]; [|exists s; auto]. destruct (inv_unref s o V F) as (s' & E & V' & _). exists s'. auto.
  - unfold add_handler. destruct o as [o|]; [|exists s; auto]. pose proof (usable_inst s o V F) as P. destruct (inst_obj s o V P) as (x & E & L & O).
    pose proof (V_cur s V) as K. unfold cur in K. rewrite P in K. destruct K as (x0 & E0 & _ & R0 & R1 & S0 & _). assert (x0 = x) by congruence. subst x0.
    rewrite O. cbn [bind]. cbv zeta. eexists. split; [reflexivity|].
    apply (inv_obj s o x (set_handlers x (t_handlers x ++ [s_next s])) (EAdd o (s_next s)) _ V P E L); try reflexivity; try (quiet; fail); cbn [strong set_handlers t_refs]; lia.
  - unfold remove_handler. destruct o as [o|]; [|exists s; auto]. pose proof (usable_inst s o V F) as P. destruct (inst_obj s o V P) as (x & E & L & O).
    pose proof (V_cur s V) as K. unfold cur in K. rewrite P in K. destruct K as (x0 & E0 & _ & R0 & R1 & S0 & _). assert (x0 = x) by congruence. subst x0.
    rewrite O. cbn [bind]. eexists. split; [reflexivity|].
    apply (inv_obj s o x (set_handlers x (filter (fun g => negb (Nat.eqb g h)) (t_handlers x))) (ERemove o h) (s_next s) V P E L); try reflexivity; try (quiet; fail); cbn [strong set_handlers t_refs]; lia.
  - exact (inv_error s c V F).
  - destruct (inv_begin s c V F) as (s' & _ & _ & E & V' & _). exists s'. auto.
  - destruct (inv_emission s V) as (s' & E & V' & _). exists s'. auto.
  - destruct (inv_end s V) as (s' & E & V' & _). exists s'. auto.
Qed.

Lemma inv_run l : forall s, Inv s -> all_along fair s l -> exists s', run s l = Ok s' /\ Inv s'.
Proof.
  induction l as [|a l IH]; intros s V F; [exists s; auto|]. destruct F as [Fa F]. destruct (inv_step s a V Fa) as (s1 & E & V1).
  rewrite E in F. cbn [run]. rewrite E. cbn [bind]. exact (IH s1 V1 F).
Qed.
Lemma inv_start : Inv start.
Proof.
  constructor.
  - split; [reflexivity|]. intros c y E. destruct c; discriminate.
  - intros o x E. destruct o; discriminate.
  - reflexivity.
  - reflexivity.
  - intros o x E. destruct o; discriminate.
  - intros o _. split; reflexivity.
  - intros c y E. destruct c; discriminate.
  - intros c _. repeat split.
  - reflexivity.
Qed.
Lemma inv_reach l s : all_along fair start l -> run start l = Ok s -> Inv s.
Proof. intros F E. destruct (inv_run l _ inv_start F) as (s' & E' & V). assert (s' = s) by congruence. subst. exact V. Qed.
