(* The invariant of weak references *)
From Verif Require Import Base WeakModel WeakSpec.

Lemma nth_len {A} (l : list A) n x : nth_error l n = Some x -> (n < length l)%nat.
Proof. intros E. apply nth_error_Some. rewrite E. discriminate. Qed.
Lemma nth_upd {A} (l : list A) n m x y z : nth_error l n = Some x -> nth_error (upd l n y) m = Some z ->
  (m = n /\ z = y) \/ (m <> n /\ nth_error l m = Some z).
Proof.
  intros E F. destruct (Nat.eq_dec m n) as [->|N].
  - rewrite nth_error_upd_eq in F by exact (nth_len _ _ _ E). left. split; congruence.
  - rewrite nth_error_upd_ne in F by congruence. right. tauto.
Qed.
Lemma nth_upd_eq {A} (l : list A) n x y : nth_error l n = Some x -> nth_error (upd l n y) n = Some y.
Proof. intros E. apply nth_error_upd_eq. exact (nth_len _ _ _ E). Qed.
Lemma upd_same {A} (l : list A) n x : nth_error l n = Some x -> upd l n x = l.
Proof. revert n. induction l as [|y l IH]; intros [|n] E; try discriminate; cbn [upd]; [injection E as ->; reflexivity|]. rewrite (IH n E). reflexivity. Qed.

(* Locations and pointers belong together *)
Record Locs (s : state) : Prop := MkLocs {
  L_loc : forall o x w, nth_error (s_objs s) o = Some x -> In w (g_locs x) -> exists y, nth_error (s_weak s) w = Some y /\ w_live y = true /\ w_ptr y = Some o;
  L_ptr : forall w y o, nth_error (s_weak s) w = Some y -> w_live y = true -> w_ptr y = Some o -> exists x, nth_error (s_objs s) o = Some x /\ In w (g_locs x);
  L_life : forall o x w, nth_error (s_objs s) o = Some x -> In w (g_locs x) -> g_life x = Alive }.

Lemma weak_ok s w y : nth_error (s_weak s) w = Some y -> w_live y = true -> weak s w = Ok y.
Proof. intros E L. unfold weak. rewrite E, L. reflexivity. Qed.
Lemma obj_ok s o x : nth_error (s_objs s) o = Some x -> g_life x <> Final -> obj s o = Ok x.
Proof. intros E L. unfold obj. rewrite E. destruct (g_life x); congruence. Qed.

Lemma in_without v w l : In v (without w l) <-> In v l /\ v <> w.
Proof. unfold without. rewrite filter_In. destruct (Nat.eqb_spec v w); cbn [negb]; intuition congruence. Qed.

(* Objects which have the same life and references in s and s' *)
Definition same_objs (s s' : state) : Prop :=
  length (s_objs s') = length (s_objs s) /\
  forall o x', nth_error (s_objs s') o = Some x' -> exists x, nth_error (s_objs s) o = Some x /\ g_life x' = g_life x /\ g_refs x' = g_refs x.

Lemma same_objs_refl s : same_objs s s.
Proof. split; [reflexivity|]. intros o x E. exists x. auto. Qed.
Lemma same_objs_set s o x y : nth_error (s_objs s) o = Some x -> g_life y = g_life x -> g_refs y = g_refs x -> same_objs s (set_obj s o y).
Proof.
  intros E L R. split; [apply upd_length|]. intros p z Z. cbn [set_obj s_objs] in Z. destruct (nth_upd _ _ _ _ _ _ E Z) as [[-> ->]|[_ Z']]; [exists x; auto|exists z; auto].
Qed.
Lemma same_objs_trans s s' s'' : same_objs s s' -> same_objs s' s'' -> same_objs s s''.
Proof.
  intros [L1 A1] [L2 A2]. split; [congruence|]. intros o x E. destruct (A2 o x E) as (y & Y & P & Q). destruct (A1 o y Y) as (z & Z & P' & Q'). exists z. split; [exact Z|]. split; congruence.
Qed.

Lemma wset s w y p : Locs s -> nth_error (s_weak s) w = Some y -> w_live y = true ->
  (forall b, p = Some b -> exists x, nth_error (s_objs s) b = Some x /\ g_life x = Alive) ->
  exists s', weak_ref_set s w p = Ok s' /\ s_trace s' = s_trace s /\ s_weak s' = upd (s_weak s) w (WRef (w_count y) p true) /\ same_objs s s' /\ Locs s'.
Proof.
  intros V W L P. unfold weak_ref_set. rewrite (weak_ok s w y W L). cbn [bind].
  destruct (match w_ptr y, p with None, None => true | Some a, Some b => Nat.eqb a b | _, _ => false end) eqn:Q.
  { exists s. split; [reflexivity|]. split; [reflexivity|]. split; [|split; [apply same_objs_refl|exact V]].
    symmetry. apply upd_same. rewrite W. f_equal. destruct y as [c q l]. cbn [w_ptr w_live w_count] in *. subst l. f_equal.
    destruct q as [a|], p as [b|]; try discriminate Q; [apply Nat.eqb_eq in Q; congruence|reflexivity]. }
  cbv zeta. set (s1 := set_weak s w (WRef (w_count y) p true)).
  (* the old target *)
  assert (X : exists s2, (match w_ptr y with
           | Some a => do z <- obj s1 a; Ok (set_obj s1 a (GObj (g_life z) (g_refs z) (without w (g_locs z))))
           | None => Ok s1 end) = Ok s2 /\ s_trace s2 = s_trace s /\ s_weak s2 = upd (s_weak s) w (WRef (w_count y) p true) /\ same_objs s s2 /\
     (forall o x v, nth_error (s_objs s2) o = Some x -> In v (g_locs x) -> v <> w /\ g_life x = Alive /\ exists x0, nth_error (s_objs s) o = Some x0 /\ In v (g_locs x0)) /\
     (forall o x0 v, nth_error (s_objs s) o = Some x0 -> In v (g_locs x0) -> v <> w -> exists x, nth_error (s_objs s2) o = Some x /\ In v (g_locs x))).
  { destruct (w_ptr y) as [a|] eqn:A.
    - destruct (L_ptr s V w y a W L A) as (z & Z & M). pose proof (L_life s V a z w Z M) as LZ.
      assert (O : obj s1 a = Ok z) by (apply (obj_ok s1 a z); [exact Z|congruence]). rewrite O. cbn [bind].
      eexists. split; [reflexivity|]. split; [reflexivity|]. split; [reflexivity|]. split; [exact (same_objs_set s a z (GObj (g_life z) (g_refs z) (without w (g_locs z))) Z eq_refl eq_refl)|]. split.
      + intros o x v E N. cbn [set_obj s1 set_weak s_objs] in E. destruct (nth_upd _ _ _ _ _ _ Z E) as [[-> ->]|[NE E']].
        * cbn [g_locs g_life] in *. apply in_without in N as [N NW]. split; [exact NW|]. split; [exact LZ|]. exists z. auto.
        * split; [|split; [exact (L_life s V o x v E' N)|exists x; auto]]. intros ->. destruct (L_loc s V o x w E' N) as (y' & Y' & _ & P'). congruence.
      + intros o x0 v E N NW. cbn [set_obj s1 set_weak s_objs]. destruct (Nat.eq_dec o a) as [->|NE].
        * rewrite (nth_upd_eq _ _ _ _ Z). eexists. split; [reflexivity|]. cbn [g_locs]. apply in_without. split; [|exact NW]. congruence.
        * rewrite nth_error_upd_ne by congruence. exists x0. auto.
    - exists s1. split; [reflexivity|]. split; [reflexivity|]. split; [reflexivity|]. split; [exact (same_objs_refl s)|]. split.
      + intros o x v E N. split; [|split; [exact (L_life s V o x v E N)|exists x; auto]]. intros ->. destruct (L_loc s V o x w E N) as (y' & Y' & _ & P'). congruence.
      + intros o x0 v E N NW. exists x0. auto. }
  destruct X as (s2 & R2 & T2 & W2 & S2 & B1 & B2). rewrite R2. cbn [bind].
  destruct p as [b|].
  - destruct (P b eq_refl) as (x0 & X0 & LX). destruct S2 as [LEN S2].
    destruct (nth_error (s_objs s2) b) as [z|] eqn:Z; [|apply nth_error_None in Z; apply nth_len in X0; lia].
    destruct (S2 b z Z) as (x0' & X0' & LZ & RZ). assert (x0' = x0) by congruence. subst x0'.
    rewrite (obj_ok s2 b z Z) by congruence. cbn [bind]. eexists. split; [reflexivity|].
    split; [exact T2|]. split; [exact W2|]. split; [apply (same_objs_trans s s2); [split; [exact LEN|exact S2]|exact (same_objs_set s2 b z (GObj (g_life z) (g_refs z) (w :: g_locs z)) Z eq_refl eq_refl)]|].
    constructor; cbn [set_obj s_objs s_weak]; rewrite ?W2.
    + intros o x v E N. destruct (nth_upd _ _ _ _ _ _ Z E) as [[-> ->]|[NE E']].
      * cbn [g_locs In] in N. destruct N as [->|N].
        -- rewrite (nth_upd_eq _ _ _ _ W). eexists. split; [reflexivity|]. auto.
        -- destruct (B1 b z v Z N) as (NW & _ & z0 & Z0 & N0). rewrite nth_error_upd_ne by congruence. exact (L_loc s V b z0 v Z0 N0).
      * destruct (B1 o x v E' N) as (NW & _ & z0 & Z0 & N0). rewrite nth_error_upd_ne by congruence. exact (L_loc s V o z0 v Z0 N0).
    + intros v u o E Lv Pv. destruct (nth_upd _ _ _ _ _ _ W E) as [[-> ->]|[NE E']].
      * cbn [w_ptr] in Pv. injection Pv as <-. rewrite (nth_upd_eq _ _ _ _ Z). eexists. split; [reflexivity|]. left. reflexivity.
      * destruct (L_ptr s V v u o E' Lv Pv) as (q & Q1 & Q2). destruct (B2 o q v Q1 Q2 NE) as (q2 & Q3 & Q4).
        destruct (Nat.eq_dec o b) as [->|NB].
        -- rewrite (nth_upd_eq _ _ _ _ Z). eexists. split; [reflexivity|]. right. congruence.
        -- rewrite nth_error_upd_ne by congruence. exists q2. auto.
    + intros o x v E N. destruct (nth_upd _ _ _ _ _ _ Z E) as [[-> ->]|[NE E']]; [cbn [g_life]; congruence|]. exact (proj1 (proj2 (B1 o x v E' N))).
  - exists s2. split; [reflexivity|]. split; [exact T2|]. split; [exact W2|]. split; [exact S2|].
    constructor; rewrite ?W2.
    + intros o x v E N. destruct (B1 o x v E N) as (NW & _ & z0 & Z0 & N0). rewrite nth_error_upd_ne by congruence. exact (L_loc s V o z0 v Z0 N0).
    + intros v u o E Lv Pv. destruct (nth_upd _ _ _ _ _ _ W E) as [[-> ->]|[NE E']]; [discriminate Pv|].
      destruct (L_ptr s V v u o E' Lv Pv) as (q & Q1 & Q2). exact (B2 o q v Q1 Q2 NE).
    + intros o x v E N. exact (proj1 (proj2 (B1 o x v E N))).
Qed.

Lemma clear_ok l : forall s, (forall w, In w l -> exists y, nth_error (s_weak s) w = Some y /\ w_live y = true) ->
  exists s', clear_locs s l = Ok s' /\ s_trace s' = s_trace s /\ s_objs s' = s_objs s /\ length (s_weak s') = length (s_weak s) /\
  forall w y', nth_error (s_weak s') w = Some y' -> exists y, nth_error (s_weak s) w = Some y /\ w_count y' = w_count y /\ w_live y' = w_live y /\
    ((In w l /\ w_ptr y' = None) \/ (~ In w l /\ w_ptr y' = w_ptr y)).
Proof.
  induction l as [|w l IH]; intros s H.
  - exists s. split; [reflexivity|]. split; [reflexivity|]. split; [reflexivity|]. split; [reflexivity|]. intros w y E. exists y. cbn [In]. tauto.
  - cbn [clear_locs]. destruct (H w (or_introl eq_refl)) as (y & W & L). rewrite (weak_ok s w y W L). cbn [bind].
    destruct (IH (set_weak s w (WRef (w_count y) None true))) as (s' & E & T & O & LEN & F).
    { intros v M. cbn [set_weak s_weak]. destruct (Nat.eq_dec v w) as [->|N].
      - rewrite (nth_upd_eq _ _ _ _ W). eexists. split; reflexivity.
      - rewrite nth_error_upd_ne by congruence. apply H. right. exact M. }
    exists s'. split; [exact E|]. split; [exact T|]. split; [exact O|]. split; [rewrite LEN; apply upd_length|].
    intros v z Z. destruct (F v z Z) as (u & U & C1 & C2 & C3). cbn [set_weak s_weak] in U. destruct (nth_upd _ _ _ _ _ _ W U) as [[-> ->]|[NE U']].
    + exists y. cbn [w_count w_live w_ptr] in *. split; [exact W|]. split; [exact C1|]. split; [congruence|]. left. split; [left; reflexivity|]. destruct C3 as [[_ Q]|[_ Q]]; exact Q.
    + exists u. split; [exact U'|]. split; [exact C1|]. split; [exact C2|]. cbn [In]. destruct C3 as [[M Q]|[M Q]]; [left; auto|right]. split; [|exact Q]. intros [G|G]; [congruence|auto].
Qed.

Definition ok_obj (st : Z) (x : gobj) : Prop :=
  match g_life x with
  | Alive => g_refs x = st /\ 1 <= st
  | Disposing => g_refs x = st + 1 /\ 0 <= st
  | Final => st = 0
  end.

Record Inv (s : state) : Prop := MkInv {
  I_locs : Locs s;
  I_obj : forall o x, nth_error (s_objs s) o = Some x -> ok_obj (strong o (s_trace s)) x;
  I_none : forall o, (length (s_objs s) <= o)%nat -> strong o (s_trace s) = 0;
  I_weak : forall w y, nth_error (s_weak s) w = Some y ->
    if w_live y then w_count y = held w (s_trace s) /\ 0 <= w_count y /\ w_ptr y = aim w (s_trace s) else held w (s_trace s) = 0;
  I_nonew : forall w, (length (s_weak s) <= w)%nat -> held w (s_trace s) = 0 }.

Lemma get_alive s o x : Inv s -> nth_error (s_objs s) o = Some x -> strong o (s_trace s) > 0 -> g_life x <> Final.
Proof. intros V E G L. pose proof (I_obj s V o x E) as K. unfold ok_obj in K. rewrite L in K. lia. Qed.
Lemma strong_obj s o : Inv s -> strong o (s_trace s) > 0 -> exists x, nth_error (s_objs s) o = Some x /\ g_life x <> Final.
Proof.
  intros V G. destruct (nth_error (s_objs s) o) as [x|] eqn:E.
  - exists x. split; [reflexivity|]. exact (get_alive s o x V E G).
  - apply nth_error_None in E. pose proof (I_none s V o E). lia.
Qed.
Lemma held_weak s w : Inv s -> held w (s_trace s) > 0 -> exists y, nth_error (s_weak s) w = Some y /\ w_live y = true /\ w_count y = held w (s_trace s) /\ w_ptr y = aim w (s_trace s).
Proof.
  intros V G. destruct (nth_error (s_weak s) w) as [y|] eqn:E.
  - exists y. pose proof (I_weak s V w y E) as K. destruct (w_live y); [tauto|lia].
  - apply nth_error_None in E. pose proof (I_nonew s V w E). lia.
Qed.
Lemma settable_ok s p : Inv s -> settable s p -> forall b, p = Some b -> exists x, nth_error (s_objs s) b = Some x /\ g_life x = Alive.
Proof.
  intros V F b ->. cbn [settable] in F. destruct F as [G N]. destruct (strong_obj s b V G) as (x & E & L). exists x. split; [exact E|].
  destruct (g_life x) eqn:LX; [reflexivity| |congruence]. destruct N. exists x. auto.
Qed.

(* Only the counts of objects have changed *)
Lemma locs_same s s' : Locs s -> s_weak s' = s_weak s -> length (s_objs s') = length (s_objs s) ->
  (forall o x', nth_error (s_objs s') o = Some x' -> exists x, nth_error (s_objs s) o = Some x /\ g_locs x' = g_locs x /\ (g_locs x <> [] -> g_life x' = g_life x)) -> Locs s'.
Proof.
  intros V EW EL H. constructor; rewrite ?EW.
  - intros o x' w E M. destruct (H o x' E) as (x & X & L & _). rewrite L in M. exact (L_loc s V o x w X M).
  - intros w y o E L P. destruct (L_ptr s V w y o E L P) as (x & X & M). destruct (nth_error (s_objs s') o) as [x'|] eqn:E'.
    + exists x'. split; [reflexivity|]. destruct (H o x' E') as (x1 & X1 & L1 & _). congruence.
    + apply nth_error_None in E'. apply nth_len in X. lia.
  - intros o x' w E M. destruct (H o x' E) as (x & X & L & G). rewrite L in M. rewrite G; [exact (L_life s V o x w X M)|]. intros Q. rewrite Q in M. exact M.
Qed.

(* Only the counts of weak references have changed *)
Lemma locs_weak s s' : Locs s -> s_objs s' = s_objs s -> length (s_weak s') = length (s_weak s) ->
  (forall w y', nth_error (s_weak s') w = Some y' -> exists y, nth_error (s_weak s) w = Some y /\ w_ptr y' = w_ptr y /\ w_live y' = w_live y) -> Locs s'.
Proof.
  intros V EO EL H. constructor; rewrite ?EO.
  - intros o x w E M. destruct (L_loc s V o x w E M) as (y & Y & L & P). destruct (nth_error (s_weak s') w) as [y'|] eqn:E'.
    + exists y'. split; [reflexivity|]. destruct (H w y' E') as (y1 & Y1 & P1 & L1). assert (y1 = y) by congruence. subst y1. split; congruence.
    + apply nth_error_None in E'. apply nth_len in Y. lia.
  - intros w y' o E L P. destruct (H w y' E) as (y & Y & P1 & L1). apply (L_ptr s V w y o Y); congruence.
  - exact (L_life s V).
Qed.

Lemma locs_emit s e : Locs s -> Locs (emit s e).
Proof. intros V. exact (MkLocs (emit s e) (L_loc s V) (L_ptr s V) (L_life s V)). Qed.

Lemma inv_ref s o e : Inv s -> (strong o (s_trace s) > 0 \/ dying o s) ->
  (forall p, strong p (e :: s_trace s) = (if Nat.eqb o p then 1 else 0) + strong p (s_trace s)) ->
  (forall w, held w (e :: s_trace s) = held w (s_trace s)) -> (forall w, aim w (e :: s_trace s) = aim w (s_trace s)) ->
  exists s', object_ref s o = Ok s' /\ Inv (emit s' e) /\ s_trace s' = s_trace s.
Proof.
  intros V G S1 H1 A1.
  assert (X : exists x, nth_error (s_objs s) o = Some x /\ g_life x <> Final).
  { destruct G as [G|(x & E & L)]; [exact (strong_obj s o V G)|]. exists x. split; [exact E|congruence]. }
  destruct X as (x & E & L). unfold object_ref. rewrite (obj_ok s o x E L). cbn [bind]. eexists. split; [reflexivity|]. split; [|reflexivity].
  constructor; cbn [emit set_obj s_objs s_weak s_trace].
  - apply locs_emit. apply (locs_same s); [exact (I_locs s V)|reflexivity|apply upd_length|]. intros p z Z. cbn [set_obj s_objs] in Z.
    destruct (nth_upd _ _ _ _ _ _ E Z) as [[-> ->]|[_ Z']]; [exists x; auto|exists z; auto].
  - intros p z Z. rewrite S1. destruct (nth_upd _ _ _ _ _ _ E Z) as [[-> ->]|[NE Z']].
    + rewrite Nat.eqb_refl. pose proof (I_obj s V o x E) as K. unfold ok_obj in *. cbn [g_life g_refs]. destruct (g_life x); [lia|lia|congruence].
    + destruct (Nat.eqb_spec o p); [congruence|]. exact (I_obj s V p z Z').
  - intros p Lp. rewrite upd_length in Lp. rewrite S1. pose proof (nth_len _ _ _ E). destruct (Nat.eqb_spec o p); [lia|]. exact (I_none s V p Lp).
  - intros w y Y. rewrite H1, A1. exact (I_weak s V w y Y).
  - intros w Lw. rewrite H1. exact (I_nonew s V w Lw).
Qed.

Lemma inv_new s : Inv s -> Inv (State (s_objs s ++ [GObj Alive 1 []]) (s_weak s) (EObj (length (s_objs s)) :: s_trace s)).
Proof.
  intros V.
  assert (N : forall o x, nth_error (s_objs s ++ [GObj Alive 1 []]) o = Some x -> (o = length (s_objs s) /\ x = GObj Alive 1 []) \/ (o <> length (s_objs s) /\ nth_error (s_objs s) o = Some x)).
  { intros o x E. pose proof (nth_len _ _ _ E) as L. rewrite app_length in L. cbn [length] in L. destruct (Nat.eq_dec o (length (s_objs s))) as [->|NE].
    - left. rewrite nth_error_app2, Nat.sub_diag in E by lia. injection E as <-. auto.
    - right. rewrite nth_error_app1 in E by lia. auto. }
  constructor; cbn [s_objs s_weak s_trace].
  - constructor; cbn [s_objs s_weak].
    + intros o x w E M. destruct (N o x E) as [[-> ->]|[_ E']]; [destruct M|exact (L_loc s (I_locs s V) o x w E' M)].
    + intros w y o E L P. destruct (L_ptr s (I_locs s V) w y o E L P) as (x & X & M). exists x. split; [|exact M]. rewrite nth_error_app1; [exact X|exact (nth_len _ _ _ X)].
    + intros o x w E M. destruct (N o x E) as [[-> ->]|[_ E']]; [destruct M|exact (L_life s (I_locs s V) o x w E' M)].
  - intros o x E. cbn [strong]. destruct (N o x E) as [[-> ->]|[NE E']].
    + rewrite Nat.eqb_refl, (I_none s V (length (s_objs s))) by lia. unfold ok_obj. cbn [g_life g_refs]. lia.
    + destruct (Nat.eqb_spec (length (s_objs s)) o); [congruence|]. exact (I_obj s V o x E').
  - intros o L. rewrite app_length in L. cbn [length] in L. cbn [strong]. destruct (Nat.eqb_spec (length (s_objs s)) o); [lia|]. apply (I_none s V). lia.
  - intros w y E. exact (I_weak s V w y E).
  - intros w L. exact (I_nonew s V w L).
Qed.

Lemma inv_unref s o : Inv s -> strong o (s_trace s) > 0 -> exists s', object_unref s o = Ok s' /\ Inv s' /\
  (s_trace s' = EUnref o :: s_trace s /\ (strong o (s_trace s) <> 1 \/ dying o s) \/ s_trace s' = EDying o :: EUnref o :: s_trace s /\ strong o (s_trace s) = 1 /\ ~ dying o s).
Proof.
  intros V G. destruct (strong_obj s o V G) as (x & E & L). unfold object_unref. rewrite (obj_ok s o x E L). cbn [bind].
  pose proof (I_obj s V o x E) as K. unfold ok_obj in K.
  destruct ((g_refs x =? 1) && match g_life x with Alive => true | _ => false end) eqn:Q.
  - apply andb_true_iff in Q as [Q LA]. apply Z.eqb_eq in Q. destruct (g_life x) eqn:LX; try discriminate LA. clear LA.
    destruct (clear_ok (g_locs x) (emit s (EUnref o))) as (s1 & C & T & O & LEN & W1).
    { intros w M. destruct (L_loc s (I_locs s V) o x w E M) as (y & Y & YL & _). exists y. auto. }
    rewrite C. cbn [bind]. eexists. split; [reflexivity|].
    split; [|right; cbn [emit set_obj s_trace]; rewrite T; split; [reflexivity|]; split; [lia|]; intros (x' & X' & D'); congruence].
    cbn [emit s_objs s_weak] in O, LEN, W1.
    assert (OU : forall p z, nth_error (upd (s_objs s1) o (GObj Disposing 1 [])) p = Some z -> (p = o /\ z = GObj Disposing 1 []) \/ (p <> o /\ nth_error (s_objs s) p = Some z)).
    { intros p z Z. rewrite O in Z. exact (nth_upd _ _ _ _ _ _ E Z). }
    constructor; cbn [emit set_obj s_objs s_weak s_trace]; rewrite ?T; cbn [emit s_trace].
    + constructor; cbn [emit set_obj s_objs s_weak].
      * intros p z w Z M. destruct (OU p z Z) as [[-> ->]|[NE Z']]; [destruct M|].
        destruct (L_loc s (I_locs s V) p z w Z' M) as (y & Y & YL & YP). destruct (nth_error (s_weak s1) w) as [y'|] eqn:Y'; [|apply nth_error_None in Y'; apply nth_len in Y; lia].
        exists y'. split; [reflexivity|]. destruct (W1 w y' Y') as (y1 & Y1 & _ & L1 & D). assert (y1 = y) by congruence. subst y1. split; [congruence|].
        destruct D as [[D _]|[_ D]]; [|congruence]. destruct (L_loc s (I_locs s V) o x w E D) as (y2 & Y2 & _ & P2). congruence.
      * intros w y' p Y' YL YP. destruct (W1 w y' Y') as (y & Y & _ & L1 & D). destruct D as [[_ D]|[D1 D2]]; [congruence|].
        destruct (L_ptr s (I_locs s V) w y p Y) as (z & Z & M); [congruence|congruence|]. exists z. split; [|exact M]. rewrite O. rewrite nth_error_upd_ne; [exact Z|].
        intros ->. assert (z = x) by congruence. subst z. contradiction.
      * intros p z w Z M. destruct (OU p z Z) as [[-> ->]|[NE Z']]; [destruct M|exact (L_life s (I_locs s V) p z w Z' M)].
    + intros p z Z. cbn [strong]. destruct (OU p z Z) as [[-> ->]|[NE Z']].
      * rewrite Nat.eqb_refl. unfold ok_obj. cbn [g_life g_refs]. lia.
      * destruct (Nat.eqb_spec o p); [congruence|]. rewrite Z.sub_0_r. exact (I_obj s V p z Z').
    + intros p Lp. rewrite upd_length, O in Lp. cbn [strong]. pose proof (nth_len _ _ _ E). destruct (Nat.eqb_spec o p); [lia|]. rewrite (I_none s V p Lp). lia.
    + intros w y' Y'. cbn [held aim]. destruct (W1 w y' Y') as (y & Y & C1 & L1 & D). rewrite L1. pose proof (I_weak s V w y Y) as K2. destruct (w_live y) eqn:YL; [|exact K2].
      rewrite C1. split; [tauto|]. split; [tauto|]. destruct K2 as (_ & _ & K2). rewrite <- K2. destruct D as [[D1 D2]|[D1 D2]].
      * destruct (L_loc s (I_locs s V) o x w E D1) as (y2 & Y2 & _ & P2). assert (y2 = y) by congruence. subst y2. rewrite P2, Nat.eqb_refl. exact D2.
      * rewrite D2. destruct (w_ptr y) as [p|] eqn:P; [|reflexivity]. destruct (Nat.eqb_spec p o) as [->|]; [|reflexivity].
        destruct (L_ptr s (I_locs s V) w y o Y YL P) as (x2 & X2 & M2). assert (x2 = x) by congruence. subst x2. contradiction.
    + intros w Lw. rewrite LEN in Lw. cbn [held]. exact (I_nonew s V w Lw).
  - eexists. split; [reflexivity|]. split.
    2:{ left. split; [reflexivity|]. apply andb_false_iff in Q as [Q|Q].
        - apply Z.eqb_neq in Q. destruct (g_life x) eqn:LX; [left; lia| |congruence]. right. exists x. auto.
        - destruct (g_life x) eqn:LX; [discriminate| |congruence]. right. exists x. auto. }
    constructor; cbn [emit set_obj s_objs s_weak s_trace].
    + apply locs_emit. apply (locs_same s); [exact (I_locs s V)|reflexivity|apply upd_length|]. intros p z Z. cbn [set_obj s_objs] in Z.
      destruct (nth_upd _ _ _ _ _ _ E Z) as [[-> ->]|[_ Z']]; [exists x; auto|exists z; auto].
    + intros p z Z. cbn [strong]. destruct (nth_upd _ _ _ _ _ _ E Z) as [[-> ->]|[NE Z']].
      * rewrite Nat.eqb_refl. unfold ok_obj. cbn [g_life g_refs]. destruct (g_life x) eqn:LX; [|lia|congruence].
        rewrite andb_true_r in Q. apply Z.eqb_neq in Q. lia.
      * destruct (Nat.eqb_spec o p); [congruence|]. rewrite Z.sub_0_r. exact (I_obj s V p z Z').
    + intros p Lp. rewrite upd_length in Lp. cbn [strong]. pose proof (nth_len _ _ _ E). destruct (Nat.eqb_spec o p); [lia|]. rewrite (I_none s V p Lp). lia.
    + intros w y Y. exact (I_weak s V w y Y).
    + intros w Lw. exact (I_nonew s V w Lw).
Qed.

Lemma inv_disposed s o : Inv s -> dying o s -> exists s', object_disposed s o = Ok s' /\ Inv s'.
Proof.
  intros V (x & E & L). unfold object_disposed. rewrite (obj_ok s o x E) by congruence. cbn [bind]. rewrite L.
  pose proof (I_obj s V o x E) as K. unfold ok_obj in K. rewrite L in K.
  assert (NL : g_locs x = []).
  { destruct (g_locs x) as [|w l] eqn:LO; [reflexivity|]. pose proof (L_life s (I_locs s V) o x w E) as Q. rewrite LO in Q. specialize (Q (or_introl eq_refl)). congruence. }
  destruct (Z.eqb_spec (g_refs x) 1) as [R|R]; eexists; (split; [reflexivity|]); constructor; cbn [emit set_obj s_objs s_weak s_trace].
  - apply locs_emit. apply (locs_same s); [exact (I_locs s V)|reflexivity|apply upd_length|]. intros p z Z. cbn [set_obj s_objs] in Z.
    destruct (nth_upd _ _ _ _ _ _ E Z) as [[-> ->]|[_ Z']]; [exists x; split; [exact E|]; split; [symmetry; exact NL|]; intros; congruence|exists z; auto].
  - intros p z Z. cbn [strong]. destruct (nth_upd _ _ _ _ _ _ E Z) as [[-> ->]|[NE Z']]; [unfold ok_obj; cbn [g_life]; lia|exact (I_obj s V p z Z')].
  - intros p Lp. rewrite upd_length in Lp. exact (I_none s V p Lp).
  - intros w y Y. exact (I_weak s V w y Y).
  - intros w Lw. exact (I_nonew s V w Lw).
  - apply (locs_same s); [exact (I_locs s V)|reflexivity|apply upd_length|]. intros p z Z. cbn [set_obj s_objs] in Z.
    destruct (nth_upd _ _ _ _ _ _ E Z) as [[-> ->]|[_ Z']]; [exists x; split; [exact E|]; split; [reflexivity|]; intros; congruence|exists z; auto].
  - intros p z Z. cbn [strong]. destruct (nth_upd _ _ _ _ _ _ E Z) as [[-> ->]|[NE Z']]; [unfold ok_obj; cbn [g_life g_refs]; lia|exact (I_obj s V p z Z')].
  - intros p Lp. rewrite upd_length in Lp. exact (I_none s V p Lp).
  - intros w y Y. exact (I_weak s V w y Y).
  - intros w Lw. exact (I_nonew s V w Lw).
Qed.

(* What g_weak_ref_set leaves as it is *)
Lemma inv_set s s' e w y p c : Inv s -> nth_error (s_weak s) w = Some y -> w_live y = true ->
  s_trace s' = s_trace s -> s_weak s' = upd (s_weak s) w (WRef c p true) -> c = w_count y -> same_objs s s' -> Locs s' ->
  (forall o, strong o (e :: s_trace s) = strong o (s_trace s)) -> (forall v, held v (e :: s_trace s) = held v (s_trace s)) ->
  (forall v, aim v (e :: s_trace s) = if Nat.eqb w v then p else aim v (s_trace s)) -> Inv (emit s' e).
Proof.
  intros V W L T SW -> [LEN SO] V' S1 H1 A1. constructor; cbn [emit s_objs s_weak s_trace]; rewrite ?T.
  - apply locs_emit. exact V'.
  - intros o x' E. rewrite S1. destruct (SO o x' E) as (x & X & L1 & R1). pose proof (I_obj s V o x X) as K. unfold ok_obj in *. rewrite L1, R1. exact K.
  - intros o Lo. rewrite S1. apply (I_none s V). lia.
  - intros v z Z. rewrite SW in Z. rewrite H1, A1. destruct (nth_upd _ _ _ _ _ _ W Z) as [[-> ->]|[NE Z']].
    + cbn [w_live w_count w_ptr]. rewrite Nat.eqb_refl. pose proof (I_weak s V w y W) as K. rewrite L in K. tauto.
    + destruct (Nat.eqb_spec w v); [congruence|]. exact (I_weak s V v z Z').
  - intros v Lv. rewrite SW, upd_length in Lv. rewrite H1. exact (I_nonew s V v Lv).
Qed.

Lemma inv_step s a : Inv s -> fair s a -> exists s', step s a = Ok s' /\ Inv s'.
Proof.
  intros V F. destruct a as [|o|o|o|p|w|w|w|w|w p]; cbn [step fair] in *.
  - eexists. split; [reflexivity|]. exact (inv_new s V).
  - destruct (inv_ref s o (ERef o) V F) as (s1 & E & V1 & _); [reflexivity|reflexivity|reflexivity|]. rewrite E. cbn [bind]. eexists. split; [reflexivity|exact V1].
  - destruct (inv_unref s o V F) as (s1 & E & V1 & _). exists s1. auto.
  - exact (inv_disposed s o V F).
  - unfold weakref_new. cbv zeta. set (n := length (s_weak s)).
    set (s0 := State (s_objs s) (s_weak s ++ [WRef 1 None true]) (s_trace s)).
    assert (N : forall v z, nth_error (s_weak s0) v = Some z -> (v = n /\ z = WRef 1 None true) \/ (v <> n /\ nth_error (s_weak s) v = Some z)).
    { intros v z Z. cbn [s0 s_weak] in Z. pose proof (nth_len _ _ _ Z) as Lv. rewrite app_length in Lv. cbn [length] in Lv. destruct (Nat.eq_dec v n) as [->|NE].
      - left. unfold n in Z. rewrite nth_error_app2, Nat.sub_diag in Z by lia. injection Z as <-. auto.
      - right. rewrite nth_error_app1 in Z by (unfold n in NE; lia). auto. }
    set (s1 := emit s0 (EWeak n p)).
    assert (W : nth_error (s_weak s1) n = Some (WRef 1 None true)) by (cbn [s1 emit s0 s_weak]; unfold n; rewrite nth_error_app2, Nat.sub_diag by lia; reflexivity).
    assert (VL : Locs s1).
    { apply locs_emit. constructor.
      - intros o x v E M. destruct (L_loc s (I_locs s V) o x v E M) as (y & Y & YL & YP). exists y. split; [|auto]. cbn [s0 s_weak]. rewrite nth_error_app1; [exact Y|exact (nth_len _ _ _ Y)].
      - intros v y o E L P. destruct (N v y E) as [[-> ->]|[_ E']]; [discriminate|exact (L_ptr s (I_locs s V) v y o E' L P)].
      - exact (L_life s (I_locs s V)). }
    change (State (s_objs s) (s_weak s ++ [WRef 1 None true]) (EWeak n p :: s_trace s)) with s1.
    destruct (wset s1 n _ p VL W eq_refl (settable_ok s p V F)) as (s2 & E & T & SW & [LEN SO] & V2). exists s2. split; [exact E|].
    constructor; rewrite ?T; cbn [s1 emit s0 s_trace s_objs s_weak] in *.
    + exact V2.
    + intros o x' Q. destruct (SO o x' Q) as (x & X & L1 & R1). pose proof (I_obj s V o x X) as K. unfold ok_obj in *. rewrite L1, R1. exact K.
    + intros o Lo. cbn [strong]. apply (I_none s V). lia.
    + intros v z Z. rewrite SW in Z. cbn [held aim]. destruct (nth_upd _ _ _ _ _ _ W Z) as [[-> ->]|[NE Z']].
      * cbn [w_live w_count w_ptr]. rewrite Nat.eqb_refl, (I_nonew s V n) by (unfold n; lia). split; [lia|]. split; [lia|reflexivity].
      * destruct (Nat.eqb_spec n v); [congruence|]. destruct (N v z Z') as [[-> _]|[_ Z2]]; [congruence|]. exact (I_weak s V v z Z2).
    + intros v Lv. rewrite SW, upd_length, app_length in Lv. cbn [length] in Lv. cbn [held]. destruct (Nat.eqb_spec n v); [unfold n in *; lia|]. apply (I_nonew s V). lia.
  - unfold weakref_ref. destruct w as [w|]; [|exists s; auto]. destruct (held_weak s w V F) as (y & W & L & C & P). rewrite (weak_ok s w y W L). cbn [bind].
    eexists. split; [reflexivity|]. constructor; cbn [emit set_weak s_objs s_weak s_trace].
    + apply locs_emit. apply (locs_weak s); [exact (I_locs s V)|reflexivity|apply upd_length|]. intros v z Z. cbn [set_weak s_weak] in Z.
      destruct (nth_upd _ _ _ _ _ _ W Z) as [[-> ->]|[_ Z']]; [exists y; auto|exists z; auto].
    + exact (I_obj s V).
    + exact (I_none s V).
    + intros v z Z. cbn [held aim]. destruct (nth_upd _ _ _ _ _ _ W Z) as [[-> ->]|[NE Z']].
      * cbn [w_live w_count w_ptr]. rewrite Nat.eqb_refl. cbn [has] in F. split; [lia|]. split; [lia|exact P].
      * destruct (Nat.eqb_spec w v); [congruence|]. exact (I_weak s V v z Z').
    + intros v Lv. rewrite upd_length in Lv. cbn [held]. pose proof (nth_len _ _ _ W). destruct (Nat.eqb_spec w v); [lia|]. exact (I_nonew s V v Lv).
  - unfold weakref_unref. destruct w as [w|]; [|exists s; auto]. destruct (held_weak s w V F) as (y & W & L & C & P). rewrite (weak_ok s w y W L). cbn [bind].
    eexists. split; [reflexivity|]. constructor; cbn [emit set_weak s_objs s_weak s_trace].
    + apply locs_emit. apply (locs_weak s); [exact (I_locs s V)|reflexivity|apply upd_length|]. intros v z Z. cbn [set_weak s_weak] in Z.
      destruct (nth_upd _ _ _ _ _ _ W Z) as [[-> ->]|[_ Z']]; [exists y; auto|exists z; auto].
    + exact (I_obj s V).
    + exact (I_none s V).
    + intros v z Z. cbn [held aim]. destruct (nth_upd _ _ _ _ _ _ W Z) as [[-> ->]|[NE Z']].
      * cbn [w_live w_count w_ptr]. rewrite Nat.eqb_refl. cbn [has] in F. split; [lia|]. split; [lia|exact P].
      * destruct (Nat.eqb_spec w v); [congruence|]. rewrite Z.sub_0_r. exact (I_weak s V v z Z').
    + intros v Lv. rewrite upd_length in Lv. cbn [held]. pose proof (nth_len _ _ _ W). destruct (Nat.eqb_spec w v); [lia|]. rewrite (I_nonew s V v Lv). lia.
  - destruct F as (y & W & C0 & L). unfold weakref_end. rewrite (weak_ok s w y W L). cbn [bind]. rewrite C0. cbn [Z.eqb].
    destruct (wset s w y None (I_locs s V) W L) as (s1 & E & T & SW & [LEN SO] & V1); [intros b Q; discriminate|]. rewrite E. cbn [bind].
    assert (W1 : nth_error (s_weak s1) w = Some (WRef (w_count y) None true)) by (rewrite SW; exact (nth_upd_eq _ _ _ _ W)).
    rewrite (weak_ok s1 w _ W1 eq_refl). cbn [bind]. eexists. split; [reflexivity|].
    constructor; cbn [emit set_weak s_objs s_weak s_trace w_count w_ptr]; rewrite ?T.
    + apply locs_emit. constructor; cbn [set_weak s_objs s_weak].
      * intros o x v Q M. destruct (L_loc s1 V1 o x v Q M) as (z & Z & ZL & ZP). assert (NE : v <> w) by (intros ->; rewrite W1 in Z; injection Z as <-; discriminate).
        rewrite nth_error_upd_ne by congruence. exists z. auto.
      * intros v z o Z ZL ZP. destruct (nth_upd _ _ _ _ _ _ W1 Z) as [[-> ->]|[_ Z']]; [discriminate|exact (L_ptr s1 V1 v z o Z' ZL ZP)].
      * exact (L_life s1 V1).
    + intros o x' Q. destruct (SO o x' Q) as (x & X & L1 & R1). pose proof (I_obj s V o x X) as K. unfold ok_obj in *. rewrite L1, R1. exact K.
    + intros o Lo. cbn [strong]. apply (I_none s V). lia.
    + intros v z Z. cbn [held aim]. destruct (nth_upd _ _ _ _ _ _ W1 Z) as [[-> ->]|[NE Z']].
      * cbn [w_live]. pose proof (I_weak s V w y W) as K. rewrite L in K. lia.
      * rewrite SW in Z'. rewrite nth_error_upd_ne in Z' by congruence. exact (I_weak s V v z Z').
    + intros v Lv. rewrite upd_length, SW, upd_length in Lv. cbn [held]. exact (I_nonew s V v Lv).
  - unfold weakref_get. destruct w as [w|].
    + destruct (held_weak s w V F) as (y & W & L & C & P). unfold weak_ref_get. rewrite (weak_ok s w y W L). cbn [bind].
      destruct (w_ptr y) as [o|] eqn:Q.
      * destruct (L_ptr s (I_locs s V) w y o W L Q) as (x & X & M). pose proof (L_life s (I_locs s V) o x w X M) as LX.
        pose proof (I_obj s V o x X) as K. unfold ok_obj in K. rewrite LX in K.
        destruct (inv_ref s o (EGot w (Some o)) V) as (s1 & E & V1 & _); [left; lia|reflexivity|reflexivity|reflexivity|]. rewrite E. cbn [bind]. eexists. split; [reflexivity|exact V1].
      * cbn [bind]. eexists. split; [reflexivity|]. exact (MkInv (emit s (EGot w None)) (locs_emit s _ (I_locs s V)) (I_obj s V) (I_none s V) (I_weak s V) (I_nonew s V)).
    + eexists. split; [reflexivity|]. exact (MkInv (emit s (ENull None)) (locs_emit s _ (I_locs s V)) (I_obj s V) (I_none s V) (I_weak s V) (I_nonew s V)).
  - unfold weakref_set. destruct F as [F1 F2]. destruct w as [w|]; [|exists s; auto]. destruct (held_weak s w V F1) as (y & W & L & C & P).
    destruct (wset s w y p (I_locs s V) W L (settable_ok s p V F2)) as (s1 & E & T & SW & SO & V1). rewrite E. cbn [bind]. eexists. split; [reflexivity|].
    apply (inv_set s s1 (ESet w p) w y p (w_count y) V W L T SW eq_refl SO V1); reflexivity.
Qed.

Lemma inv_run l : forall s, Inv s -> all_along fair s l -> exists s', run s l = Ok s' /\ Inv s'.
Proof.
  induction l as [|a l IH]; intros s V F; [exists s; auto|]. destruct F as [Fa F]. destruct (inv_step s a V Fa) as (s1 & E & V1).
  rewrite E in F. cbn [run]. rewrite E. cbn [bind]. exact (IH s1 V1 F).
Qed.
Lemma inv_start : Inv start.
Proof.
  constructor; [constructor| | | |]; try (intros [|n]; discriminate); try (intros; reflexivity).
Qed.
Lemma inv_reach l s : all_along fair start l -> run start l = Ok s -> Inv s.
Proof. intros F E. destruct (inv_run l _ inv_start F) as (s' & E' & V). assert (s' = s) by congruence. subst. exact V. Qed.
