(* The invariant of reference counting *)
From Verif Require Import Base RefModel RefSpec.

(* Sums *)
Lemma total_app {A} (f : A -> Z) l m : total f (l ++ m) = total f l + total f m.
Proof. induction l; cbn [app total]; lia. Qed.

Lemma total_upd {A} (f : A -> Z) l n x y : nth_error l n = Some x -> total f (upd l n y) = total f l - f x + f y.
Proof.
  revert n. induction l as [|z l IH]; intros [|n] E; try discriminate.
  - injection E as ->. cbn [upd total]. lia.
  - cbn [upd total]. rewrite (IH n E). lia.
Qed.

Lemma total_nonneg {A} (f : A -> Z) l : (forall x, 0 <= f x) -> 0 <= total f l.
Proof. intros F. induction l; cbn [total]; [lia|specialize (F a); lia]. Qed.

Lemma total_ge {A} (f : A -> Z) l n x : (forall x, 0 <= f x) -> nth_error l n = Some x -> f x <= total f l.
Proof.
  intros F. revert n. induction l as [|z l IH]; intros [|n] E; try discriminate.
  - injection E as ->. cbn [total]. pose proof (total_nonneg f l F). lia.
  - cbn [total]. specialize (IH n E). specialize (F z). lia.
Qed.

Lemma total_in {A} (f : A -> Z) l x : (forall x, 0 <= f x) -> In x l -> f x <= total f l.
Proof. intros F H. apply In_nth_error in H as [n H]. exact (total_ge f l n x F H). Qed.

Lemma times_app o l m : times o (l ++ m) = times o l + times o m.
Proof. induction l; cbn [app times]; lia. Qed.
Lemma times_nonneg o l : 0 <= times o l.
Proof. induction l; cbn [times]; [lia|]. destruct (Nat.eqb a o); lia. Qed.
Lemma times_in o l : In o l -> 1 <= times o l.
Proof. induction l as [|x l IH]; cbn [times In]; [tauto|]. pose proof (times_nonneg o l). intros [->|M]; [rewrite Nat.eqb_refl; lia|]. specialize (IH M). destruct (Nat.eqb x o); lia. Qed.
Lemma times_drop o p l : In o l -> times p (drop o l) = times p l - (if Nat.eqb o p then 1 else 0).
Proof.
  induction l as [|x l IH]; cbn [times In drop]; [tauto|]. intros H. destruct (Nat.eqb_spec x o) as [E|N].
  - subst x. lia.
  - destruct H as [H|H]; [congruence|]. cbn [times]. rewrite (IH H). lia.
Qed.
Lemma pending_nonneg o i : 0 <= pending o i.
Proof. destruct i; cbn [pending]; try lia. destruct (Nat.eqb o0 o); lia. Qed.

Definition isfree (o : nat) (i : code) : Z := match i with CFree p => if Nat.eqb p o then 1 else 0 | _ => 0 end.
Lemma isfree_nonneg o i : 0 <= isfree o i.
Proof. destruct i; cbn [isfree]; try lia. destruct (Nat.eqb o0 o); lia. Qed.

Definition tw (o : nat) (x : thread) : Z := times o (t_own x) + total (pending o) (t_code x).
Definition fw (o : nat) (x : thread) : Z := total (isfree o) (t_code x).
Definition hw (o : nat) (x : obj) : Z := times o (o_held x).
Definition frees (s : state) (o : nat) : Z := total (fw o) (s_thr s).
Lemma tw_nonneg o x : 0 <= tw o x.
Proof. unfold tw. pose proof (times_nonneg o (t_own x)). pose proof (total_nonneg (pending o) (t_code x) (pending_nonneg o)). lia. Qed.
Lemma fw_nonneg o x : 0 <= fw o x.
Proof. apply total_nonneg, isfree_nonneg. Qed.
Lemma hw_nonneg o x : 0 <= hw o x.
Proof. apply times_nonneg. Qed.
Lemma refs_eq s o : refs s o = total (tw o) (s_thr s) + total (hw o) (s_objs s).
Proof. reflexivity. Qed.
Lemma refs_nonneg s o : 0 <= refs s o.
Proof. rewrite refs_eq. pose proof (total_nonneg (tw o) (s_thr s) (tw_nonneg o)). pose proof (total_nonneg (hw o) (s_objs s) (hw_nonneg o)). lia. Qed.
Lemma frees_nonneg s o : 0 <= frees s o.
Proof. apply total_nonneg, fw_nonneg. Qed.

(* Events *)
Definition islast (o : nat) (e : event) : Z := match e with ELast _ p => if Nat.eqb p o then 1 else 0 | _ => 0 end.
Definition isfreed (o : nat) (e : event) : Z := match e with EFree _ p => if Nat.eqb p o then 1 else 0 | _ => 0 end.
Lemma islast_nonneg o e : 0 <= islast o e.
Proof. destruct e; cbn [islast]; try lia. destruct (Nat.eqb o0 o); lia. Qed.
Lemma isfreed_nonneg o e : 0 <= isfreed o e.
Proof. destruct e; cbn [isfreed]; try lia. destruct (Nat.eqb o0 o); lia. Qed.
Fixpoint wf_tr (l : list event) : Prop :=
  match l with [] => True | e :: l => (match e with EFree t o => In (ELast t o) l | _ => True end) /\ wf_tr l end.

(* The state of one object: r references, f times to be freed, nl and nf in the trace *)
Definition okx (r f nl nf : Z) (x : obj) : Prop :=
  (o_live x = true /\ 1 <= r < 2^31 /\ o_count x = r /\ f = 0 /\ nl = 0 /\ nf = 0) \/
  (o_live x = true /\ r = 0 /\ o_count x = 0 /\ o_held x = [] /\ f = 1 /\ nl = 1 /\ nf = 0) \/
  (o_live x = false /\ r = 0 /\ o_held x = [] /\ f = 0 /\ nl = 1 /\ nf = 1).

(* What a thread with references own is going to do is justified *)
Fixpoint just (own : list nat) (k : list code) : Prop :=
  match k with
  | [] => True
  | CCheck o :: k => (In o own \/ exists d, In (CDec o d) k) /\ just own k
  | CRead o :: k => (In o own \/ (exists d, In (CDec o d) k) \/ In (CFree o) k) /\ just own k
  | CInc o :: k => In o own /\ just (o :: own) k
  | CDec o d :: k => (d = true -> In o own) /\ just own k
  | CMake o :: k => In o own /\ just (drop o own) k
  | CFree o :: k => just own k
  end.

Lemma in_times o l : 1 <= times o l -> In o l.
Proof. induction l as [|x l IH]; cbn [times In]; [lia|]. destruct (Nat.eqb_spec x o) as [E|N]; [auto|]. intros. right. apply IH. lia. Qed.

Lemma just_mono k : forall own own', just own k -> (forall o, times o own <= times o own') -> just own' k.
Proof.
  assert (In' : forall own own' o, (forall o, times o own <= times o own') -> In o own -> In o own')
    by (intros own own' o L M; apply in_times; apply times_in in M; specialize (L o); lia).
  induction k as [|i k IH]; intros own own' J L; [exact I|].
  destruct i as [o|o|o|o d|o|o]; cbn [just] in *.
  - destruct J as [[M|M] J]; (split; [|exact (IH own own' J L)]); eauto.
  - destruct J as [[M|M] J]; (split; [|exact (IH own own' J L)]); eauto.
  - destruct J as [M J]. split; [eauto|]. apply (IH (o :: own)); [exact J|]. intros p. specialize (L p). cbn [times]. lia.
  - destruct J as [M J]. split; [eauto|exact (IH own own' J L)].
  - destruct J as [M J]. split; [eauto|]. apply (IH (drop o own)); [exact J|].
    intros p. rewrite !times_drop by eauto. specialize (L p). lia.
  - exact (IH own own' J L).
Qed.

Record Inv (s : state) : Prop := MkInv {
  I_obj : forall o x, nth_error (s_objs s) o = Some x -> okx (refs s o) (frees s o) (total (islast o) (s_trace s)) (total (isfreed o) (s_trace s)) x;
  I_none : forall o, (length (s_objs s) <= o)%nat -> refs s o = 0 /\ frees s o = 0 /\ total (islast o) (s_trace s) = 0 /\ total (isfreed o) (s_trace s) = 0;
  I_just : forall t x, nth_error (s_thr s) t = Some x -> just (t_own x) (t_code x);
  I_mine : forall t x o, nth_error (s_thr s) t = Some x -> In (CFree o) (t_code x) -> In (ELast t o) (s_trace s);
  I_wf : wf_tr (s_trace s) }.

(* Threads and objects *)
Lemma nth_len {A} (l : list A) n x : nth_error l n = Some x -> (n < length l)%nat.
Proof. intros E. apply nth_error_Some. rewrite E. discriminate. Qed.

Lemma nth_upd {A} (l : list A) n m x y z : nth_error l n = Some x -> nth_error (upd l n y) m = Some z ->
  (m = n /\ z = y) \/ (m <> n /\ nth_error l m = Some z).
Proof.
  intros E F. destruct (Nat.eq_dec m n) as [->|N].
  - rewrite nth_error_upd_eq in F by exact (nth_len _ _ _ E). left. split; congruence.
  - rewrite nth_error_upd_ne in F by congruence. right. tauto.
Qed.

(* Nothing has changed for objects *)
Lemma inv_same s s' : Inv s ->
  length (s_objs s') = length (s_objs s) ->
  (forall o x', nth_error (s_objs s') o = Some x' ->
     exists x, nth_error (s_objs s) o = Some x /\ o_count x' = o_count x /\ o_live x' = o_live x /\ (o_held x' = o_held x \/ 1 <= refs s o)) ->
  s_trace s' = s_trace s ->
  (forall o, refs s' o = refs s o) -> (forall o, frees s' o = frees s o) ->
  (forall t x', nth_error (s_thr s') t = Some x' -> just (t_own x') (t_code x') /\
     (forall o, In (CFree o) (t_code x') -> exists x, nth_error (s_thr s) t = Some x /\ In (CFree o) (t_code x))) ->
  Inv s'.
Proof.
  intros V EL EO ET ER EF TH. constructor.
  - intros o x' E. destruct (EO o x' E) as (x & E' & C & L & HH). rewrite ER, EF, ET.
    destruct (I_obj s V o x E') as [K|[K|K]]; unfold okx; rewrite C, L; [left; tauto| |];
      (destruct HH as [->|G]; [tauto|lia]).
  - intros o L. rewrite ER, EF, ET. apply (I_none s V). lia.
  - intros t x E. exact (proj1 (TH t x E)).
  - intros t x o E M. destruct (proj2 (TH t x E) o M) as (y & E' & M'). rewrite ET. exact (I_mine s V t y o E' M').
  - rewrite ET. exact (I_wf s V).
Qed.

Lemma inv_thr s t x y : Inv s -> nth_error (s_thr s) t = Some x ->
  (forall o, tw o y = tw o x) -> (forall o, fw o y = fw o x) -> just (t_own y) (t_code y) ->
  (forall o, In (CFree o) (t_code y) -> In (CFree o) (t_code x)) -> Inv (set_thr s t y).
Proof.
  intros V E TW FW J M. apply (inv_same s); auto.
  - intros o z F. exists z. auto.
  - intros o. rewrite !refs_eq. unfold set_thr. cbn [s_thr s_objs]. rewrite (total_upd _ _ _ x y E), TW. lia.
  - intros o. unfold frees, set_thr. cbn [s_thr]. rewrite (total_upd _ _ _ x y E), FW. lia.
  - intros u z F. unfold set_thr in F. cbn [s_thr] in F. destruct (nth_upd _ _ _ _ _ _ E F) as [[-> ->]|[_ F']].
    + split; [exact J|]. intros o N. exists x. auto.
    + split; [exact (I_just s V u z F')|]. intros o N. exists z. auto.
Qed.

(* Owned, or to be dropped: alive *)
Lemma live_get s o : Inv s -> 1 <= refs s o + frees s o ->
  exists x, nth_error (s_objs s) o = Some x /\ o_live x = true /\ get s o = Ok x.
Proof.
  intros V G. destruct (nth_error (s_objs s) o) as [x|] eqn:E.
  - exists x. unfold get. rewrite E. destruct (I_obj s V o x E) as [K|[K|K]]; destruct K as (L & K); rewrite L; auto. lia.
  - apply nth_error_None in E. pose proof (I_none s V o E). lia.
Qed.

Lemma alive_get s o : Inv s -> 1 <= refs s o ->
  exists x, nth_error (s_objs s) o = Some x /\ get s o = Ok x /\ o_live x = true /\ o_count x = refs s o /\ refs s o < 2^31 /\ frees s o = 0.
Proof.
  intros V G. destruct (live_get s o V) as (x & E & L & F); [pose proof (frees_nonneg s o); lia|].
  exists x. destruct (I_obj s V o x E) as [K|[K|K]]; [|lia|lia]. tauto.
Qed.

Lemma own_refs s t x o : nth_error (s_thr s) t = Some x -> In o (t_own x) -> 1 <= refs s o.
Proof.
  intros E M. rewrite refs_eq. pose proof (total_ge (tw o) _ t x (tw_nonneg o) E). pose proof (total_nonneg (hw o) (s_objs s) (hw_nonneg o)).
  unfold tw in H at 1. apply times_in in M. pose proof (total_nonneg (pending o) (t_code x) (pending_nonneg o)). lia.
Qed.

Lemma dec_refs s t x o d : nth_error (s_thr s) t = Some x -> In (CDec o d) (t_code x) -> 1 <= refs s o.
Proof.
  intros E M. rewrite refs_eq. pose proof (total_ge (tw o) _ t x (tw_nonneg o) E). pose proof (total_nonneg (hw o) (s_objs s) (hw_nonneg o)).
  unfold tw in H at 1. pose proof (total_in (pending o) _ _ (pending_nonneg o) M) as P. cbn [pending] in P. rewrite Nat.eqb_refl in P.
  pose proof (times_nonneg o (t_own x)). lia.
Qed.

Lemma free_frees s t x o : nth_error (s_thr s) t = Some x -> In (CFree o) (t_code x) -> 1 <= frees s o.
Proof.
  intros E M. pose proof (total_ge (fw o) _ t x (fw_nonneg o) E). unfold fw in H at 1.
  pose proof (total_in (isfree o) _ _ (isfree_nonneg o) M) as P. cbn [isfree] in P. rewrite Nat.eqb_refl in P. unfold frees. lia.
Qed.

(* Weights of what the functions do *)
Lemma check_w f s o : (f (CCheck o) = 0) -> total f (check s o) = 0.
Proof. intros F. unfold check. destruct (s_debug s && checks (class_of s o)); cbn [total]; lia. Qed.

Lemma unref_pending s o p : total (pending p) (unref_code s o) = if Nat.eqb o p then 1 else 0.
Proof. unfold unref_code. rewrite total_app, check_w by reflexivity. cbn [total pending]. lia. Qed.
Lemma unref_isfree s o p : total (isfree p) (unref_code s o) = 0.
Proof. unfold unref_code. rewrite total_app, check_w by reflexivity. reflexivity. Qed.

Lemma last_pending s c o held p : total (pending p) (last_code s c o held) = times p held.
Proof.
  assert (A : total (pending p) (flat_map (unref_code s) held) = times p held)
    by (induction held as [|h l IH]; [reflexivity|]; cbn [flat_map times]; rewrite total_app, unref_pending, IH; reflexivity).
  assert (B : total (pending p) (flat_map (fun h => CRead o :: unref_code s h) held) = times p held)
    by (clear A; induction held as [|h l IH]; [reflexivity|]; cbn [flat_map times app total]; rewrite total_app, unref_pending, IH; cbn [pending]; lia).
  destruct c; unfold last_code; cbn [total]; rewrite total_app; cbn [total pending]; rewrite ?A, ?B; lia.
Qed.
Lemma last_isfree s c o held p : total (isfree p) (last_code s c o held) = if Nat.eqb o p then 1 else 0.
Proof.
  assert (A : total (isfree p) (flat_map (unref_code s) held) = 0)
    by (induction held as [|h l IH]; [reflexivity|]; cbn [flat_map]; rewrite total_app, unref_isfree, IH; reflexivity).
  assert (B : total (isfree p) (flat_map (fun h => CRead o :: unref_code s h) held) = 0)
    by (clear A; induction held as [|h l IH]; [reflexivity|]; cbn [flat_map app total]; rewrite total_app, unref_isfree, IH; reflexivity).
  destruct c; unfold last_code; cbn [total]; rewrite total_app; cbn [total isfree]; rewrite ?A, ?B; lia.
Qed.

Lemma just_unref s o own k : just own k -> just own (unref_code s o ++ k).
Proof.
  intros J. unfold unref_code, check. destruct (s_debug s && checks (class_of s o)); cbn [app just].
  - split; [right; exists false; left; reflexivity|]. split; [discriminate|exact J].
  - split; [discriminate|exact J].
Qed.

Lemma just_last s c o held own k : just own k -> just own (last_code s c o held ++ k).
Proof.
  intros J.
  assert (A : forall m, just own m -> just own (flat_map (unref_code s) held ++ m)).
  { intros m. induction held as [|h l IH]; intros Jm; [exact Jm|]. cbn [flat_map]. rewrite <- app_assoc. apply just_unref. auto. }
  assert (B : forall m, just own m -> In (CFree o) m -> just own (flat_map (fun h => CRead o :: unref_code s h) held ++ m)).
  { clear A. intros m. induction held as [|h l IH]; intros Jm M; [exact Jm|]. cbn [flat_map app just]. rewrite <- app_assoc. split.
    - right. right. apply in_or_app. right. apply in_or_app. right. exact M.
    - apply just_unref. auto. }
  destruct c; unfold last_code; cbn [app just]; rewrite <- app_assoc; cbn [app].
  1, 4, 5: apply B; cbn [just In]; auto.
  - split; [right; right; apply in_or_app; right; left; reflexivity|]. apply A. exact J.
  - apply A. exact J.
  - split; [right; right; apply in_or_app; right; left; reflexivity|]. apply A. exact J.
Qed.

Lemma in_last_free s c o held k p : In (CFree p) (last_code s c o held ++ k) -> p = o \/ In (CFree p) k.
Proof.
  intros M. apply in_app_or in M as [M|M]; [|auto]. left.
  pose proof (total_in (isfree p) _ _ (isfree_nonneg p) M) as P. rewrite last_isfree in P. cbn [isfree] in P. rewrite Nat.eqb_refl in P.
  destruct (Nat.eqb_spec o p); [auto|lia].
Qed.
