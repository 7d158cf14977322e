(* The invariant of time notifications *)
From Verif Require Import Base TimeModel TimeSpec.

Lemma nth_len {A} (l : list A) n x : nth_error l n = Some x -> (n < length l)%nat.
Proof. intros E. apply nth_error_Some. rewrite E. discriminate. Qed.
Lemma nth_upd {A} (l : list A) n m x y z : nth_error l n = Some x -> nth_error (upd l n y) m = Some z ->
  (m = n /\ z = y) \/ (m <> n /\ nth_error l m = Some z).
Proof.
  intros E F. destruct (Nat.eq_dec m n) as [->|N].
  - rewrite nth_error_upd_eq in F by exact (nth_len _ _ _ E). left. split; congruence.
  - rewrite nth_error_upd_ne in F by congruence. right. tauto.
Qed.
Lemma nth_upd_eq {A} (l : list A) n x y : nth_error l n = Some x -> nth_error (upd l n y) n = Some y.
Proof. intros E. apply nth_error_upd_eq. exact (nth_len _ _ _ E). Qed.
Lemma upd_upd {A} (l : list A) n x y : upd (upd l n x) n y = upd l n y.
Proof. revert n. induction l as [|z l IH]; intros [|n]; cbn [upd]; [reflexivity..|]. rewrite IH. reflexivity. Qed.
Lemma nth_snoc {A} (l : list A) y n z : nth_error (l ++ [y]) n = Some z -> (n = length l /\ z = y) \/ (n <> length l /\ nth_error l n = Some z).
Proof.
  intros E. pose proof (nth_len _ _ _ E) as L. rewrite app_length in L. cbn [length] in L. destruct (Nat.eq_dec n (length l)) as [->|NE].
  - left. rewrite nth_error_app2, Nat.sub_diag in E by lia. injection E as <-. auto.
  - right. rewrite nth_error_app1 in E by lia. auto.
Qed.

Definition dead (y : io) : Prop := i_open y = false /\ i_live y = false /\ i_on y = false /\ i_running y = false.
Definition live_io (o : nat) (on run : bool) : io := Io o true (if on then 2 else 1) true true on run.

Fixpoint in_frames (o : nat) (l : list frame) : Z := match l with [] => 0 | f :: l => (if Nat.eqb (f_obj f) o then 1 else 0) + in_frames o l end.

Definition cur (s : state) : Prop :=
  match s_inst s with
  | None => s_frames s = [] /\ forall c y, nth_error (s_io s) c = Some y -> dead y
  | Some o =>
      exists x, nth_error (s_objs s) o = Some x /\ t_live x = true /\ t_refs x = strong o (s_trace s) + Z.of_nat (length (s_frames s)) /\
      1 <= t_refs x /\ 0 <= strong o (s_trace s) /\
      match t_chan x with
      | None => t_watch x = O /\ s_frames s = [] /\ forall c y, nth_error (s_io s) c = Some y -> dead y
      | Some c =>
          exists on run, nth_error (s_io s) c = Some (live_io o on run) /\ t_watch x = (if on then S c else O) /\
          (if run then on = true /\ exists l, s_frames s = [Frame c o l] else s_frames s = []) /\
          forall d y, d <> c -> nth_error (s_io s) d = Some y -> dead y
      end
  end.

Definition b2z (b : bool) : Z := if b then 1 else 0.

Record Inv (s : state) : Prop := MkInv {
  V_cur : cur s;
  V_objs : forall o x, nth_error (s_objs s) o = Some x -> s_inst s <> Some o -> t_live x = false;
  V_strong : forall p, s_inst s <> Some p -> strong p (s_trace s) = 0;
  V_firing : forall p, firing p (s_trace s) = in_frames p (s_frames s);
  V_obj : forall o x, nth_error (s_objs s) o = Some x -> number (is_new o) (s_trace s) = 1 /\ number (is_final o) (s_trace s) = b2z (negb (t_live x));
  V_noobj : forall o, (length (s_objs s) <= o)%nat -> number (is_new o) (s_trace s) = 0 /\ number (is_final o) (s_trace s) = 0;
  V_io : forall c y, nth_error (s_io s) c = Some y -> number (is_open c) (s_trace s) = 1 /\ number (is_close c) (s_trace s) = b2z (negb (i_open y)) /\
    number (is_attach c) (s_trace s) = 1 /\ number (is_destroy c) (s_trace s) = b2z (negb (i_on y)) /\
    (i_open y = true -> number (is_error c) (s_trace s) = b2z (negb (i_on y))) /\ number (is_free c) (s_trace s) = b2z (negb (i_live y));
  V_noio : forall c, (length (s_io s) <= c)%nat -> number (is_open c) (s_trace s) = 0 /\ number (is_close c) (s_trace s) = 0 /\
    number (is_attach c) (s_trace s) = 0 /\ number (is_destroy c) (s_trace s) = 0 /\ number (is_error c) (s_trace s) = 0 /\ number (is_free c) (s_trace s) = 0;
  V_bad : number is_bad (s_trace s) = 0 }.

(* The cases of finalization *)
Lemma finalize_none s o x : nth_error (s_objs s) o = Some x -> t_live x = true -> t_chan x = None ->
  finalize s o = Ok (State (s_inst s) (upd (s_objs s) o (Notify 0 None (t_watch x) [] false)) (s_io s) (s_frames s) (s_next s) (EFinal o :: s_trace s)).
Proof. intros E L C. unfold finalize, obj. rewrite E, L. cbn [bind]. rewrite C. cbn [bind]. rewrite E, L. cbn [bind]. rewrite C. reflexivity. Qed.

Ltac sim I0 := repeat first
  [ progress cbn [bind emit set_io set_obj set_inst set_frames s_inst s_objs s_io s_frames s_next s_trace i_obj i_open i_refs i_close i_live i_on i_running live_io app]
  | rewrite upd_upd | rewrite (nth_upd_eq _ _ _ _ I0) | rewrite I0
  | progress unfold gutil_source_remove, source_remove, chan_shutdown, chan_unref, chan, source, close
  | progress change (2 =? 1) with false | progress change (2 - 1 =? 1) with true | progress change (1 =? 1) with true | progress cbv zeta ].

Lemma finalize_some s o x c on run : nth_error (s_objs s) o = Some x -> t_live x = true -> t_chan x = Some c ->
  nth_error (s_io s) c = Some (live_io o on run) -> t_watch x = (if on then S c else O) -> (run = true -> on = true) ->
  finalize s o = Ok (State (s_inst s) (upd (s_objs s) o (Notify 0 (Some c) (t_watch x) [] false))
    (upd (s_io s) c (Io o false (if run then 1 else 0) false run false run)) (s_frames s) (s_next s)
    (EFinal o :: (if run then [] else [EFree c]) ++ EClose c :: (if on then [EDestroy c] else []) ++ s_trace s)).
Proof.
  intros E L C I0 W R. unfold finalize, obj. rewrite E, L. cbn [bind]. rewrite C, W. unfold emit, set_obj.
  destruct on, run; try discriminate (R eq_refl); sim I0; rewrite E, L; cbn [bind]; rewrite C, W; reflexivity.
Qed.
