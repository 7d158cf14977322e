(* Proofs about object arrays with finalizers. *)
From Verif Require Import Base FinalModel FinalSpec.

(* ---- Lists ---- *)
Lemma occ_app x c d : occ x (c ++ d) = (occ x c + occ x d)%nat.
Proof. induction c as [|y c IH]; cbn [app occ]; [reflexivity|]. rewrite IH. lia. Qed.
Lemma occ_in x c : In x c -> (0 < occ x c)%nat.
Proof.
  induction c as [|y c IH]; cbn [In occ]; [intros []|]. intros [->|H]; [rewrite Nat.eqb_refl; lia|]. specialize (IH H). lia.
Qed.
Lemma remove_nth_app c1 y c2 : remove_nth (length c1) (c1 ++ y :: c2) = c1 ++ c2.
Proof. induction c1 as [|z c1 IH]; cbn [length app remove_nth]; [reflexivity|]. rewrite IH. reflexivity. Qed.
Lemma nth_split_at (c : list nat) p y : nth_error c p = Some y -> exists c1 c2, c = c1 ++ y :: c2 /\ length c1 = p.
Proof. intros H. destruct (nth_error_split c p H) as [c1 [c2 [E L]]]. exists c1, c2. split; [exact E|exact L]. Qed.
Lemma nth_app_mid (c1 c2 : list nat) y : nth_error (c1 ++ y :: c2) (length c1) = Some y.
Proof. induction c1 as [|z c1 IH]; [reflexivity|exact IH]. Qed.
Definition keep (x : nat) (c : list nat) : list nat := filter (fun y => negb (Nat.eqb y x)) c.
Lemma keep_app x c d : keep x (c ++ d) = keep x c ++ keep x d.
Proof. apply filter_app. Qed.
Lemma keep_none x c : ~ In x c -> keep x c = c.
Proof.
  unfold keep. induction c as [|y c IH]; intros N; cbn [filter]; [reflexivity|].
  destruct (Nat.eqb_spec y x) as [->|Hne]; [exfalso; apply N; left; reflexivity|]. cbn [negb]. rewrite IH; [reflexivity|].
  intros H. apply N. right. exact H.
Qed.
Lemma keep_cons x c : keep x (x :: c) = keep x c.
Proof. unfold keep. cbn [filter]. rewrite Nat.eqb_refl. reflexivity. Qed.
Lemma find_some x c p : find x c = Some p -> exists c1 c2, c = c1 ++ x :: c2 /\ length c1 = p /\ ~ In x c1.
Proof.
  revert p. induction c as [|y c IH]; intros p; cbn [find]; [discriminate|].
  destruct (Nat.eqb_spec y x) as [->|Hne].
  - intros [= <-]. exists [], c. split; [reflexivity|]. split; [reflexivity|intros []].
  - destruct (find x c) as [q|] eqn:E; cbn [option_map]; [|discriminate]. intros [= <-].
    destruct (IH q eq_refl) as [c1 [c2 [-> [L N]]]]. exists (y :: c1), c2. split; [reflexivity|]. split; [cbn [length]; rewrite L; reflexivity|].
    intros [H|H]; [exact (Hne H)|exact (N H)].
Qed.
Lemma find_none x c : find x c = None -> ~ In x c.
Proof.
  induction c as [|y c IH]; cbn [find]; [intros _ []|].
  destruct (Nat.eqb_spec y x) as [->|Hne]; [discriminate|]. destruct (find x c) as [q|]; cbn [option_map]; [discriminate|].
  intros _ [H|H]; [exact (Hne H)|exact (IH eq_refl H)].
Qed.
Lemma find_last_none x c : find_last x c = None -> ~ In x c.
Proof.
  induction c as [|y c IH]; cbn [find_last]; [intros _ []|].
  destruct (find_last x c) as [q|]; [discriminate|]. destruct (Nat.eqb_spec y x) as [->|Hne]; [discriminate|].
  intros _ [H|H]; [exact (Hne H)|exact (IH eq_refl H)].
Qed.
Lemma find_last_some x c p : find_last x c = Some p -> exists c1 c2, c = c1 ++ x :: c2 /\ length c1 = p /\ ~ In x c2.
Proof.
  revert p. induction c as [|y c IH]; intros p; cbn [find_last]; [discriminate|].
  destruct (find_last x c) as [q|] eqn:E.
  - intros [= <-]. destruct (IH q eq_refl) as [c1 [c2 [-> [L N]]]]. exists (y :: c1), c2. split; [reflexivity|]. split; [cbn [length]; rewrite L; reflexivity|exact N].
  - destruct (Nat.eqb_spec y x) as [->|Hne]; [|discriminate]. intros [= <-]. exists [], c. split; [reflexivity|]. split; [reflexivity|].
    exact (find_last_none x c E).
Qed.
Lemma remove_first_app x c1 c2 : ~ In x c1 -> remove_first x (c1 ++ x :: c2) = c1 ++ c2.
Proof.
  induction c1 as [|y c1 IH]; intros N; cbn [app remove_first]; [rewrite Nat.eqb_refl; reflexivity|].
  destruct (Nat.eqb_spec y x) as [->|Hne]; [exfalso; apply N; left; reflexivity|]. rewrite IH; [reflexivity|]. intros H. apply N. right. exact H.
Qed.
Lemma remove_first_none x c : ~ In x c -> remove_first x c = c.
Proof.
  induction c as [|y c IH]; intros N; cbn [remove_first]; [reflexivity|].
  destruct (Nat.eqb_spec y x) as [->|Hne]; [exfalso; apply N; left; reflexivity|]. rewrite IH; [reflexivity|]. intros H. apply N. right. exact H.
Qed.
Lemma firstn_len (a b : list nat) : firstn (length a) (a ++ b) = a.
Proof. rewrite firstn_app, Nat.sub_diag, firstn_all, firstn_O, app_nil_r. reflexivity. Qed.
Lemma skipn_len (a b : list nat) : skipn (length a) (a ++ b) = b.
Proof. rewrite skipn_app, Nat.sub_diag, skipn_all. reflexivity. Qed.
Lemma firstn_skipn_mid (c : list nat) base l : (base + l <= length c)%nat -> exists a b d : list nat, c = a ++ b ++ d /\ length a = base /\ length b = l.
Proof.
  intros H. exists (firstn base c), (firstn l (skipn base c)), (skipn l (skipn base c)).
  split; [rewrite firstn_skipn, firstn_skipn; reflexivity|]. split; [rewrite firstn_length; lia|]. rewrite firstn_length, skipn_length. lia.
Qed.

(* x is removed from the l objects at base *)
Definition range (c : list nat) (base l x : nat) : list nat := firstn base c ++ keep x (firstn l (skipn base c)) ++ skipn (base + l) c.
Lemma range_app a b d x : range (a ++ b ++ d) (length a) (length b) x = a ++ keep x b ++ d.
Proof.
  unfold range. rewrite firstn_len, skipn_len, firstn_len.
  assert (E : skipn (length a + length b) (a ++ b ++ d) = d) by (rewrite <- app_length, app_assoc; apply skipn_len). rewrite E. reflexivity.
Qed.

(* ---- Invariant ---- *)
Fixpoint of_stack (st : list frame) (v : nat) : option cont :=
  match st with
  | [] => None
  | f :: st => match var_of (cont_of f) with Some w => if Nat.eqb w v then Some (cont_of f) else of_stack st v | None => of_stack st v end
  end.
Fixpoint uniq (n : nat) (st : list frame) : Prop :=
  match st with
  | [] => True
  | f :: st => match var_of (cont_of f) with Some w => of_stack st w = None /\ (w < n)%nat | None => True end /\ uniq n st
  end.
Lemma of_stack_busy s v : busy s v <-> of_stack (s_stack s) v <> None.
Proof.
  unfold busy. induction (s_stack s) as [|f st IH]; cbn [of_stack].
  - split; [intros [f [[] _]]|intros H; destruct (H eq_refl)].
  - split.
    + intros [g [[<-|Hin] E]].
      * rewrite E, Nat.eqb_refl. discriminate.
      * destruct (var_of (cont_of f)) as [w|]; [destruct (Nat.eqb w v); [discriminate|]|]; apply IH; exists g; (split; [exact Hin|exact E]).
    + destruct (var_of (cont_of f)) as [w|] eqn:E.
      * destruct (Nat.eqb_spec w v) as [->|Hne]; [intros _; exists f; split; [left; reflexivity|exact E]|].
        intros H. apply IH in H. destruct H as [g [Hin Eg]]. exists g. split; [right; exact Hin|exact Eg].
      * intros H. apply IH in H. destruct H as [g [Hin Eg]]. exists g. split; [right; exact Hin|exact Eg].
Qed.
Lemma not_busy s v : ~ busy s v -> of_stack (s_stack s) v = None.
Proof. intros H. destruct (of_stack (s_stack s) v) eqn:E; [|reflexivity]. exfalso. apply H. apply of_stack_busy. rewrite E. discriminate. Qed.

Definition addr (k : cont) : nat := match k with KDone => 0 | KMove _ a _ _ _ _ _ _ => a | KFind _ a _ _ _ _ => a | KFree _ a _ => a end.
Definition wf (k : cont) (c : list nat) : Prop :=
  match k with
  | KDone => True
  | KMove _ _ base p len _ all l => length c = len /\ (p < len)%nat /\ (all = true -> (base + l <= len - 1)%nat)
  | KFind _ _ base len _ l => length c = len /\ (base + l <= len)%nat
  | KFree _ _ i => True
  end.
(* The references which the array still has; its value when the call is over *)
Definition rest (k : cont) (c : list nat) : list nat :=
  match k with KDone => [] | KMove _ _ _ p _ _ _ _ => remove_nth p c | KFind _ _ _ _ _ _ => c | KFree _ _ i => skipn i c end.
Definition goal (k : cont) (c : list nat) : list nat :=
  match k with
  | KDone => []
  | KMove _ _ base p _ x true l => range (remove_nth p c) base l x
  | KMove _ _ _ p _ _ false _ => remove_nth p c
  | KFind _ _ base _ x l => range c base l x
  | KFree _ _ _ => []
  end.
(* The variable is not changed before the end of these *)
Definition there (k : cont) : bool := match k with KDone => false | KMove _ _ _ _ _ _ all _ => negb all | KFind _ _ _ _ _ _ => false | KFree _ _ _ => true end.

(* Variable v: the block at t has its objects, h is the references to objects *)
Definition slot (s : state) (v : nat) (t : option nat) (h : list nat) : Prop :=
  match of_stack (s_stack s) v with
  | None =>
      nth_error (s_vars s) v = Some t /\ h = value (s_trace s) v /\ match t with None => h = [] | Some a => nth_error (s_heap s) a = Some (Some h) end
  | Some k =>
      t = Some (addr k) /\ (there k = true -> nth_error (s_vars s) v = Some t) /\
      exists c, nth_error (s_heap s) (addr k) = Some (Some c) /\ wf k c /\ h = rest k c /\ value (s_trace s) v = goal k c
  end.
Fixpoint total (H : nat -> list nat) (n x : nat) : nat := match n with O => 0 | S n => total H n x + occ x (H n) end.
Definition counts (o : list (option nat)) (R : nat -> nat) : Prop :=
  forall x, match nth_error o x with Some (Some r) => r = R x /\ (0 < r)%nat | _ => R x = 0%nat end.
Definition inv_with (s : state) (T : nat -> option nat) (H : nat -> list nat) : Prop :=
  (forall v, (v < length (s_vars s))%nat -> slot s v (T v) (H v)) /\
  (forall v w a, (v < length (s_vars s))%nat -> (w < length (s_vars s))%nat -> T v = Some a -> T w = Some a -> v = w) /\
  uniq (length (s_vars s)) (s_stack s) /\
  length (s_own s) = length (s_objs s) /\
  counts (s_objs s) (fun x => nth x (s_own s) 0 + total H (length (s_vars s)) x)%nat /\
  (forall a c, nth_error (s_heap s) a = Some (Some c) -> exists v, (v < length (s_vars s))%nat /\ T v = Some a).
Definition inv (s : state) : Prop := exists T H, inv_with s T H.

Definition fu {A} (f : nat -> A) (v : nat) (a : A) : nat -> A := fun w => if Nat.eqb w v then a else f w.
Lemma fu_eq {A} (f : nat -> A) v a : fu f v a v = a.
Proof. unfold fu. rewrite Nat.eqb_refl. reflexivity. Qed.
Lemma fu_ne {A} (f : nat -> A) v a w : w <> v -> fu f v a w = f w.
Proof. intros N. unfold fu. destruct (Nat.eqb_spec w v) as [E|E]; [destruct (N E)|reflexivity]. Qed.
Lemma total_out H n v h x : (n <= v)%nat -> total (fu H v h) n x = total H n x.
Proof. induction n as [|n IH]; intros L; cbn [total]; [reflexivity|]. rewrite IH by lia. rewrite fu_ne by lia. reflexivity. Qed.
Lemma total_fu H n v h x : (v < n)%nat -> (total (fu H v h) n x + occ x (H v) = total H n x + occ x h)%nat.
Proof.
  induction n as [|n IH]; intros L; [lia|]. cbn [total]. destruct (Nat.eq_dec v n) as [->|Hne].
  - rewrite total_out by lia. rewrite fu_eq. lia.
  - rewrite fu_ne by lia. specialize (IH ltac:(lia)). lia.
Qed.
Lemma total_ge H n v x : (v < n)%nat -> (occ x (H v) <= total H n x)%nat.
Proof. induction n as [|n IH]; intros L; [lia|]. cbn [total]. destruct (Nat.eq_dec v n) as [->|Hne]; [lia|]. specialize (IH ltac:(lia)). lia. Qed.

(* One variable changes *)
Lemma inv_update s s' T H v t h :
  inv_with s T H -> (v < length (s_vars s))%nat -> length (s_vars s') = length (s_vars s) ->
  (forall w, w <> v -> nth_error (s_vars s') w = nth_error (s_vars s) w) ->
  (forall w, w <> v -> of_stack (s_stack s') w = of_stack (s_stack s) w) ->
  (forall w, w <> v -> value (s_trace s') w = value (s_trace s) w) ->
  (forall w a, (w < length (s_vars s))%nat -> w <> v -> T w = Some a -> nth_error (s_heap s') a = nth_error (s_heap s) a) ->
  (forall w a, (w < length (s_vars s))%nat -> w <> v -> T w = Some a -> t <> Some a) ->
  slot s' v t h -> uniq (length (s_vars s)) (s_stack s') -> length (s_own s') = length (s_objs s') ->
  counts (s_objs s') (fun x => nth x (s_own s') 0 + total (fu H v h) (length (s_vars s)) x)%nat ->
  (forall a c, nth_error (s_heap s') a = Some (Some c) -> t = Some a \/ (nth_error (s_heap s) a = Some (Some c) /\ T v <> Some a)) ->
  inv_with s' (fu T v t) (fu H v h).
Proof.
  intros [I1 [I2 [I3 [I4 [I5 I6]]]]] Hv EL EV ES ET EH EA SL U LO C OW. unfold inv_with. rewrite EL. split; [|split; [|split; [|split; [|split]]]].
  - intros w Hw. destruct (Nat.eq_dec w v) as [->|Hne]; [rewrite !fu_eq; exact SL|]. rewrite !fu_ne by exact Hne.
    specialize (I1 w Hw). unfold slot in *. rewrite (ES w Hne), (EV w Hne), (ET w Hne).
    destruct (of_stack (s_stack s) w) as [k|].
    + destruct I1 as [E1 [E2 [c [E3 E4]]]]. split; [exact E1|]. split; [exact E2|]. exists c. rewrite (EH w (addr k) Hw Hne E1). split; [exact E3|exact E4].
    + destruct I1 as [E1 [E2 E3]]. split; [exact E1|]. split; [exact E2|]. destruct (T w) as [a|] eqn:E; [|exact E3]. rewrite (EH w a Hw Hne E). exact E3.
  - intros w u a Hw Hu. unfold fu. destruct (Nat.eqb_spec w v) as [->|N1]; destruct (Nat.eqb_spec u v) as [->|N2].
    + reflexivity.
    + intros E1 E2. destruct (EA u a Hu N2 E2 E1).
    + intros E1 E2. destruct (EA w a Hw N1 E1 E2).
    + apply I2; [exact Hw|exact Hu].
  - exact U.
  - exact LO.
  - exact C.
  - intros a c E. destruct (OW a c E) as [Et|[E0 N0]]; [exists v; split; [exact Hv|rewrite fu_eq; exact Et]|].
    destruct (I6 a c E0) as [w [Hw Ew]]. exists w. split; [exact Hw|]. rewrite fu_ne; [exact Ew|]. intros ->. exact (N0 Ew).
Qed.
(* The block of v is the same *)
Lemma owner_keep s T H v t : inv_with s T H -> T v = t -> forall a c, nth_error (s_heap s) a = Some (Some c) -> t = Some a \/ (nth_error (s_heap s) a = Some (Some c) /\ T v <> Some a).
Proof.
  intros J E a c Ea. destruct t as [b|].
  - destruct (Nat.eq_dec b a) as [->|Hne]; [left; reflexivity|]. right. split; [exact Ea|]. rewrite E. intros [= X]. exact (Hne X).
  - right. split; [exact Ea|]. rewrite E. discriminate.
Qed.

(* ---- Objects ---- *)
Lemma nth_error_lt {A} (l : list A) n a : nth_error l n = Some a -> (n < length l)%nat.
Proof. intros H. apply nth_error_Some. rewrite H. discriminate. Qed.
Lemma counts_ext o R R' : (forall x, R x = R' x) -> counts o R -> counts o R'.
Proof. intros E C x. specialize (C x). rewrite <- E. exact C. Qed.
Lemma counts_alive o R x : counts o R -> (0 < R x)%nat -> nth_error o x = Some (Some (R x)).
Proof.
  intros C P. specialize (C x). destruct (nth_error o x) as [[r|]|]; [|lia|lia]. destruct C as [-> _]. reflexivity.
Qed.
Lemma counts_upd o R x r r' R' : counts o R -> nth_error o x = Some (Some r) ->
  match r' with Some r' => r' = R' x /\ (0 < r')%nat | None => R' x = 0%nat end -> (forall y, y <> x -> R' y = R y) -> counts (upd o x r') R'.
Proof.
  intros C E Hr HR y. destruct (Nat.eq_dec y x) as [->|Hne].
  - rewrite nth_error_upd_eq by (apply nth_error_lt in E; exact E). destruct r' as [r'|]; exact Hr.
  - rewrite nth_error_upd_ne by (intros X; apply Hne; symmetry; exact X). rewrite (HR y Hne). exact (C y).
Qed.

(* g_object_unref: the function goes on, or an object is finalized *)
Lemma unref_ok s x k R : counts (s_objs s) R -> (0 < R x)%nat ->
  exists s' f e, unref s x k = Ok s' /\ s_vars s' = s_vars s /\ s_heap s' = s_heap s /\ s_own s' = s_own s /\
    s_stack s' = f :: s_stack s /\ cont_of f = k /\ s_trace s' = e ++ s_trace s /\ (forall v, value (e ++ s_trace s) v = value (s_trace s) v) /\
    length (s_objs s') = length (s_objs s) /\ counts (s_objs s') (fun y => R y - occ y [x])%nat.
Proof.
  intros C P. pose proof (counts_alive _ _ _ C P) as E. unfold unref. rewrite E.
  assert (X : forall y, y <> x -> (R y - occ y [x] = R y)%nat).
  { intros y Hy. cbn [occ]. destruct (Nat.eqb_spec x y) as [Ex|_]; [destruct (Hy (eq_sym Ex))|lia]. }
  assert (Y : (R x - occ x [x] = R x - 1)%nat) by (cbn [occ]; rewrite Nat.eqb_refl; lia).
  destruct (R x) as [|[|m]] eqn:Er; [lia| |].
  - eexists. exists (FNotify k), [EFinal x]. split; [reflexivity|]. cbn [sets log seto s_vars s_heap s_own s_stack s_trace s_objs cont_of app].
    repeat (split; [reflexivity|]). split; [apply upd_length|]. apply (counts_upd _ R x (S O)); [exact C|exact E|rewrite Er; rewrite Y; reflexivity|exact X].
  - eexists. exists (FRun k), []. split; [reflexivity|]. cbn [sets log seto s_vars s_heap s_own s_stack s_trace s_objs cont_of app].
    repeat (split; [reflexivity|]). split; [apply upd_length|].
    apply (counts_upd _ R x (S (S m))); [exact C|exact E|rewrite Er; rewrite Y; split; lia|exact X].
Qed.
Lemma ref_ok s x R : counts (s_objs s) R -> (0 < R x)%nat ->
  exists o, ref s x = Ok (seto s o) /\ length o = length (s_objs s) /\ counts o (fun y => R y + occ y [x])%nat.
Proof.
  intros C P. pose proof (counts_alive _ _ _ C P) as E. unfold ref. rewrite E. eexists. split; [reflexivity|]. split; [apply upd_length|].
  apply (counts_upd _ R x (R x)); [exact C|exact E| |].
  - cbn [occ]. rewrite Nat.eqb_refl. split; lia.
  - intros y Hy. cbn [occ]. destruct (Nat.eqb_spec x y) as [Ex|_]; [destruct (Hy (eq_sym Ex))|lia].
Qed.
Lemma refs_ok s c R : counts (s_objs s) R -> (forall x, In x c -> (0 < R x)%nat) ->
  exists o, refs s c = Ok (seto s o) /\ length o = length (s_objs s) /\ counts o (fun y => R y + occ y c)%nat.
Proof.
  revert s R. induction c as [|x c IH]; intros s R C P.
  - exists (s_objs s). split; [destruct s; reflexivity|]. split; [reflexivity|]. eapply counts_ext; [|exact C]. intros y. cbn [occ]. lia.
  - destruct (ref_ok s x R C (P x (or_introl eq_refl))) as [o [E [L C']]].
    destruct (IH (seto s o) _ C') as [o' [E' [L' C'']]].
    + intros y Hy. specialize (P y (or_intror Hy)). lia.
    + exists o'. cbn [refs]. rewrite E. cbn [bind]. rewrite E'. split; [reflexivity|]. cbn [seto s_objs] in L'. split; [lia|].
      eapply counts_ext; [|exact C'']. intros y. cbn [occ]. lia.
Qed.

(* ---- Steps ---- *)
Lemma slot_addr s v a h : slot s v (Some a) h -> exists c, nth_error (s_heap s) a = Some (Some c).
Proof.
  unfold slot. destruct (of_stack (s_stack s) v) as [k|].
  - intros [[= ->] [_ [c [E _]]]]. exists c. exact E.
  - intros [_ [_ E]]. exists h. exact E.
Qed.
Lemma realloc_ok h a c c' moved h' b : nth_error h a = Some (Some c) -> realloc h a c' moved = (h', b) ->
  nth_error h' b = Some (Some c') /\ (b = a \/ b = length h) /\ (forall w d, w <> a -> nth_error h w = Some d -> nth_error h' w = Some d) /\
  (forall w d, nth_error h' w = Some (Some d) -> w = b \/ (nth_error h w = Some (Some d) /\ w <> a)).
Proof.
  intros E. unfold realloc. destruct moved; intros [= <- <-].
  - split; [rewrite nth_error_app2 by (rewrite upd_length; lia); rewrite upd_length, Nat.sub_diag; reflexivity|]. split; [right; reflexivity|]. split.
    { intros w d Hw Ew. rewrite nth_error_app1 by (rewrite upd_length; exact (nth_error_lt _ _ _ Ew)). rewrite nth_error_upd_ne by (intros X; apply Hw; symmetry; exact X). exact Ew. }
    intros w d Ew. destruct (Nat.lt_ge_cases w (length h)) as [L|L].
    + rewrite nth_error_app1 in Ew by (rewrite upd_length; exact L). right. destruct (Nat.eq_dec a w) as [<-|Hne]; [rewrite nth_error_upd_eq in Ew by exact L; discriminate|].
      rewrite nth_error_upd_ne in Ew by exact Hne. split; [exact Ew|]. intros X. apply Hne. symmetry. exact X.
    + left. pose proof (nth_error_lt _ _ _ Ew) as L2. rewrite app_length, upd_length in L2. cbn [length] in L2. lia.
  - split; [apply nth_error_upd_eq; exact (nth_error_lt _ _ _ E)|]. split; [left; reflexivity|]. split.
    { intros w d Hw Ew. rewrite nth_error_upd_ne by (intros X; apply Hw; symmetry; exact X). exact Ew. }
    intros w d Ew. destruct (Nat.eq_dec a w) as [<-|Hne]; [left; reflexivity|]. rewrite nth_error_upd_ne in Ew by exact Hne. right. split; [exact Ew|].
    intros X. apply Hne. symmetry. exact X.
Qed.
Lemma alloc_ok h c h' b : alloc h c = (h', b) ->
  nth_error h' b = Some (Some c) /\ b = length h /\ (forall w d, nth_error h w = Some d -> nth_error h' w = Some d) /\
  (forall w d, nth_error h' w = Some (Some d) -> w = b \/ nth_error h w = Some (Some d)).
Proof.
  unfold alloc. intros [= <- <-]. split; [rewrite nth_error_app2 by lia; rewrite Nat.sub_diag; reflexivity|]. split; [reflexivity|].
  split; [intros w d Ew; rewrite nth_error_app1 by exact (nth_error_lt _ _ _ Ew); exact Ew|].
  intros w d Ew. destruct (Nat.lt_ge_cases w (length h)) as [L|L]; [rewrite nth_error_app1 in Ew by exact L; right; exact Ew|].
  left. pose proof (nth_error_lt _ _ _ Ew) as L2. rewrite app_length in L2. cbn [length] in L2. lia.
Qed.
(* Blocks of other variables *)
Lemma others s T H v t : inv_with s T H -> (v < length (s_vars s))%nat -> T v = t ->
  forall w a, (w < length (s_vars s))%nat -> w <> v -> T w = Some a -> t <> Some a /\ (exists c, nth_error (s_heap s) a = Some (Some c)) /\ (a < length (s_heap s))%nat.
Proof.
  intros [I1 [I2 _]] Hv Et w a Hw Hne E. split; [intros ->; apply Hne; exact (I2 w v a Hw Hv E Et)|].
  specialize (I1 w Hw). rewrite E in I1. destruct (slot_addr _ _ _ _ I1) as [c Ec]. split; [exists c; exact Ec|exact (nth_error_lt _ _ _ Ec)].
Qed.
Lemma inv_same s s' T H :
  inv_with s T H -> s_vars s' = s_vars s -> s_heap s' = s_heap s -> (forall w, of_stack (s_stack s') w = of_stack (s_stack s) w) ->
  (forall w, value (s_trace s') w = value (s_trace s) w) -> uniq (length (s_vars s)) (s_stack s') -> length (s_own s') = length (s_objs s') ->
  counts (s_objs s') (fun x => nth x (s_own s') 0 + total H (length (s_vars s)) x)%nat -> inv_with s' T H.
Proof.
  intros [I1 [I2 [I3 [I4 [I5 I6]]]]] EV EH ES ET U LO C. unfold inv_with. rewrite EV. split; [|split; [|split; [|split; [|split]]]].
  - intros w Hw. specialize (I1 w Hw). unfold slot in *. rewrite ES, EV, ET, EH. exact I1.
  - exact I2.
  - exact U.
  - exact LO.
  - exact C.
  - rewrite EH. exact I6.
Qed.
Lemma of_stack_top f st v k : cont_of f = k -> var_of k = Some v -> of_stack (f :: st) v = Some k.
Proof. intros E1 E2. cbn [of_stack]. rewrite E1, E2, Nat.eqb_refl. reflexivity. Qed.
Lemma of_stack_skip f st v w : var_of (cont_of f) = Some v -> w <> v -> of_stack (f :: st) w = of_stack st w.
Proof. intros E N. cbn [of_stack]. rewrite E. destruct (Nat.eqb_spec v w) as [X|_]; [destruct (N (eq_sym X))|reflexivity]. Qed.
Lemma of_stack_done f st w : cont_of f = KDone -> of_stack (f :: st) w = of_stack st w.
Proof. intros E. cbn [of_stack]. rewrite E. reflexivity. Qed.
Lemma total_ext H H' n x : (forall v, H v = H' v) -> total H n x = total H' n x.
Proof. intros E. induction n as [|n IH]; cbn [total]; [reflexivity|]. rewrite IH, E. reflexivity. Qed.
Lemma total_keep H n v x : total (fu H v (H v)) n x = total H n x.
Proof. apply total_ext. intros w. unfold fu. destruct (Nat.eqb_spec w v) as [->|_]; reflexivity. Qed.
Lemma occ_nth (c : list nat) p y x : nth_error c p = Some y -> occ x c = (occ x (remove_nth p c) + occ x [y])%nat.
Proof.
  intros E. destruct (nth_split_at c p y E) as [c1 [c2 [-> <-]]]. rewrite remove_nth_app, !occ_app. cbn [occ]. lia.
Qed.
Lemma remove_nth_length p c : (p < length c)%nat -> length (remove_nth p c) = (length c - 1)%nat.
Proof.
  revert p. induction c as [|y c IH]; intros p L; cbn [length] in *; [lia|]. destruct p as [|p]; cbn [remove_nth length]; [lia|].
  rewrite IH by lia. lia.
Qed.
Lemma remove_nth_spec p (c : list nat) : (p < length c)%nat -> remove_nth p c = firstn p c ++ skipn (S p) c.
Proof.
  revert p. induction c as [|y c IH]; intros p L; cbn [length] in *; [lia|]. destruct p as [|p]; [reflexivity|].
  cbn [remove_nth firstn app]. rewrite IH by lia. reflexivity.
Qed.
Lemma counts_drop o own H n v h y R : (v < n)%nat -> (forall x, occ x (H v) = occ x h + occ x [y])%nat ->
  (forall x, R x = nth x own 0 + total H n x)%nat ->
  counts o (fun x => R x - occ x [y])%nat -> counts o (fun x => nth x own 0 + total (fu H v h) n x)%nat.
Proof.
  intros Hv E ER C. eapply counts_ext; [|exact C]. intros x. cbn beta. rewrite ER. pose proof (total_fu H n v h x Hv). specialize (E x). lia.
Qed.

(* A reference of array v is dropped; the rest of the call is k *)
Lemma drop_ok s s0 T H v y k c h : inv_with s T H -> (v < length (s_vars s))%nat ->
  s_vars s0 = s_vars s -> s_heap s0 = s_heap s -> s_objs s0 = s_objs s -> s_own s0 = s_own s ->
  (forall w, w <> v -> of_stack (s_stack s0) w = of_stack (s_stack s) w) -> of_stack (s_stack s0) v = None -> uniq (length (s_vars s)) (s_stack s0) ->
  (forall w, w <> v -> value (s_trace s0) w = value (s_trace s) w) ->
  var_of k = Some v -> T v = Some (addr k) -> (there k = true -> nth_error (s_vars s) v = Some (T v)) ->
  nth_error (s_heap s) (addr k) = Some (Some c) -> wf k c -> h = rest k c -> value (s_trace s0) v = goal k c ->
  (forall x, occ x (H v) = occ x h + occ x [y])%nat ->
  exists s', unref s0 y k = Ok s' /\ inv s' /\ length (s_vars s') = length (s_vars s).
Proof.
  intros J Hv E1 E2 E3 E4 ES ES0 U ET KV TK TH EB W EH EG EO. pose proof J as [I1 [I2 [I3 [I4 [I5 I6]]]]].
  destruct (unref_ok s0 y k (fun x => nth x (s_own s) 0 + total H (length (s_vars s)) x)%nat) as [s' [f [e [R [V [Hp [O [SK [CF [TR [VL [LO C]]]]]]]]]]]].
  - rewrite E3. exact I5.
  - pose proof (total_ge H (length (s_vars s)) v y Hv). rewrite EO in H0. cbn [occ] in H0. rewrite Nat.eqb_refl in H0. lia.
  - exists s'. split; [exact R|]. split; [|rewrite V, E1; reflexivity].
    exists (fu T v (T v)), (fu H v h).
    apply (inv_update s s'); [exact J|exact Hv|rewrite V, E1; reflexivity| | | | | | | | | |].
    + intros w _. rewrite V, E1. reflexivity.
    + intros w Hw. rewrite SK. rewrite (of_stack_skip f _ v w) by (rewrite ?CF; assumption). exact (ES w Hw).
    + intros w Hw. rewrite TR, VL. exact (ET w Hw).
    + intros w a _ _ _. rewrite Hp, E2. reflexivity.
    + intros w a Hw Hne E. destruct (others s T H v (T v) J Hv eq_refl w a Hw Hne E) as [X _]. exact X.
    + unfold slot. rewrite SK, (of_stack_top f _ v k CF KV). split; [exact TK|]. split; [intros X; rewrite V, E1; exact (TH X)|].
      exists c. rewrite Hp, E2. split; [exact EB|]. split; [exact W|]. split; [exact EH|]. rewrite TR, VL. exact EG.
    + rewrite SK. cbn [uniq]. rewrite CF, KV. split; [split; [exact ES0|exact Hv]|exact U].
    + rewrite O, LO, E3, E4. exact I4.
    + rewrite O, E4. eapply counts_drop; [exact Hv|exact EO| |exact C]. intros x. reflexivity.
    + rewrite Hp, E2. exact (owner_keep s T H v (T v) J eq_refl).
Qed.

Lemma uniq_top n f st : uniq n (f :: st) -> uniq n st.
Proof. cbn [uniq]. intros [_ U]. exact U. Qed.
Lemma nth_error_var s v : (v < length (s_vars s))%nat -> exists t, nth_error (s_vars s) v = Some t.
Proof. intros L. destruct (nth_error (s_vars s) v) as [t|] eqn:E; [exists t; reflexivity|]. apply nth_error_None in E. lia. Qed.

Lemma resume_ok s k st moved : inv s -> s_stack s = FRun k :: st ->
  exists s', resume s k st moved = Ok s' /\ inv s' /\ length (s_vars s') = length (s_vars s).
Proof.
  intros [T [H J]] EST. pose proof J as [I1 [I2 [I3 [I4 [I5 I6]]]]]. rewrite EST in I3.
  destruct k as [|v a base p len x all l|v a base len x l|v a i].
  - cbn [resume]. eexists. split; [reflexivity|]. split; [|reflexivity]. exists T, H. apply (inv_same s); [exact J|reflexivity|reflexivity| |reflexivity| |exact I4|exact I5].
    + intros w. cbn [sets s_stack]. rewrite EST. reflexivity.
    + cbn [sets s_stack]. exact (uniq_top _ _ _ I3).
  - (* KMove *)
    cbn [uniq cont_of var_of] in I3. destruct I3 as [[N Hv] U].
    pose proof (I1 v Hv) as SL. unfold slot in SL. rewrite EST in SL. rewrite (of_stack_top (FRun (KMove v a base p len x all l)) st v (KMove v a base p len x all l) eq_refl eq_refl) in SL.
    destruct SL as [TK [TH [c [EB [[W1 [W2 W3]] [EH EG]]]]]]. cbn [addr] in TK, EB. cbn [rest] in EH. cbn [goal] in EG.
    cbn [resume]. unfold block. rewrite EB. cbn [bind]. rewrite W1, Nat.eqb_refl.
    destruct (realloc (s_heap s) a (remove_nth p c) moved) as [h b] eqn:ER.
    destruct (realloc_ok _ _ _ _ _ _ _ EB ER) as [Rb [Rab [Rw Rc]]].
    pose proof (others s T H v (Some a) J Hv TK) as OT.
    assert (OB : forall w a0, (w < length (s_vars s))%nat -> w <> v -> T w = Some a0 -> Some b <> Some a0).
    { intros w a0 Hw Hne E. destruct (OT w a0 Hw Hne E) as [X1 [_ X3]]. destruct Rab as [->| ->]; [exact X1|]. intros [= <-]. lia. }
    assert (OH : forall w a0, (w < length (s_vars s))%nat -> w <> v -> T w = Some a0 -> nth_error h a0 = nth_error (s_heap s) a0).
    { intros w a0 Hw Hne E. destruct (OT w a0 Hw Hne E) as [X1 [[d X2] _]]. rewrite X2. apply Rw; [|exact X2]. intros ->. apply X1. reflexivity. }
    assert (OW : forall a0 d, nth_error h a0 = Some (Some d) -> Some b = Some a0 \/ (nth_error (s_heap s) a0 = Some (Some d) /\ T v <> Some a0)).
    { intros a0 d E0. destruct (Rc a0 d E0) as [->|[X1 X2]]; [left; reflexivity|]. right. split; [exact X1|]. rewrite TK. intros [= X]. exact (X2 (eq_sym X)). }
    destruct all.
    + eexists. split; [reflexivity|]. split; [|reflexivity]. exists (fu T v (Some b)), (fu H v (H v)).
      apply (inv_update s); [exact J|exact Hv|reflexivity|reflexivity| |reflexivity| | | | | | |exact OW].
      * intros w Hw. cbn [sets seth s_stack]. rewrite EST, !(of_stack_skip _ st v w) by (try reflexivity; exact Hw). reflexivity.
      * cbn [sets seth s_heap]. exact OH.
      * exact OB.
      * unfold slot. cbn [sets seth s_stack s_vars s_heap s_trace].
        rewrite (of_stack_top (FRun (KFind v b base (len - 1) x l)) st v (KFind v b base (len - 1) x l) eq_refl eq_refl). cbn [addr there]. split; [reflexivity|]. split; [discriminate|].
        exists (remove_nth p c). split; [exact Rb|]. split; [|split; [exact EH|exact EG]].
        cbn [wf]. split; [rewrite remove_nth_length by lia; lia|exact (W3 eq_refl)].
      * cbn [sets seth s_stack uniq cont_of var_of]. split; [split; [exact N|exact Hv]|exact U].
      * exact I4.
      * cbn [sets seth s_objs s_own]. eapply counts_ext; [|exact I5]. intros y. rewrite total_keep. reflexivity.
    + eexists. split; [reflexivity|]. split; [|cbn [sets setv seth s_vars]; apply upd_length]. exists (fu T v (Some b)), (fu H v (H v)).
      apply (inv_update s); [exact J|exact Hv|cbn [sets setv seth s_vars]; apply upd_length| | |reflexivity| | | | | | |exact OW].
      * intros w Hw. cbn [sets setv seth s_vars]. apply nth_error_upd_ne. intros X. apply Hw. symmetry. exact X.
      * intros w Hw. cbn [sets setv seth s_stack]. rewrite EST, (of_stack_skip _ st v w) by (try reflexivity; exact Hw). reflexivity.
      * cbn [sets setv seth s_heap]. exact OH.
      * exact OB.
      * unfold slot. cbn [sets setv seth s_stack s_vars s_heap s_trace]. rewrite N. split; [apply nth_error_upd_eq; exact Hv|].
        split; [rewrite EH, EG; reflexivity|]. rewrite EH. exact Rb.
      * cbn [sets setv seth s_stack]. exact U.
      * exact I4.
      * cbn [sets setv seth s_objs s_own]. eapply counts_ext; [|exact I5]. intros y. rewrite total_keep. reflexivity.
  - (* KFind *)
    cbn [uniq cont_of var_of] in I3. destruct I3 as [[N Hv] U].
    pose proof (I1 v Hv) as SL. unfold slot in SL. rewrite EST in SL. rewrite (of_stack_top (FRun (KFind v a base len x l)) st v (KFind v a base len x l) eq_refl eq_refl) in SL.
    destruct SL as [TK [TH [c [EB [[W1 W2] [EH EG]]]]]]. cbn [addr] in TK, EB. cbn [rest] in EH. cbn [goal] in EG.
    cbn [resume]. unfold block. rewrite EB. cbn [bind]. rewrite <- W1 in W2.
    destruct (firstn_skipn_mid c base l W2) as [a1 [b1 [d1 [Ec [La Lb]]]]].
    assert (EF : firstn l (skipn base c) = b1) by (rewrite Ec, <- La, <- Lb, skipn_len, firstn_len; reflexivity).
    rewrite EF. destruct (find_last x b1) as [i|] eqn:EFL.
    + destruct (find_last_some x b1 i EFL) as [b2 [b3 [Eb [Li Nb]]]].
      assert (EC : c = (a1 ++ b2) ++ x :: (b3 ++ d1)).
      { rewrite Ec, Eb, <- !app_assoc. reflexivity. }
      assert (EL : length (a1 ++ b2) = (base + i)%nat) by (rewrite app_length, La, Li; reflexivity).
      assert (ERM : remove_nth (base + i) c = a1 ++ b2 ++ b3 ++ d1) by (rewrite <- EL, EC, remove_nth_app, <- app_assoc; reflexivity).
      apply (drop_ok s (sets s st) T H v x _ c (remove_nth (base + i) c)); [exact J|exact Hv|reflexivity|reflexivity|reflexivity|reflexivity| |exact N|exact U|reflexivity|reflexivity|exact TK| |exact EB| |reflexivity| |].
      * intros w Hw. cbn [sets s_stack]. rewrite EST, (of_stack_skip _ st v w) by (try reflexivity; exact Hw). reflexivity.
      * discriminate.
      * cbn [wf]. assert (X : length c = (length a1 + length b2 + 1 + length b3 + length d1)%nat).
        { rewrite EC, !app_length. cbn [length]. rewrite app_length. lia. }
        split; [exact W1|]. split; [lia|]. intros _. lia.
      * cbn [sets s_trace goal]. rewrite EG, ERM. rewrite <- La at 2. rewrite <- Li, range_app. rewrite Ec, <- La, <- Lb, range_app, Eb, keep_app, keep_cons, (keep_none x b3 Nb), <- app_assoc. reflexivity.
      * intros y. rewrite EH. apply occ_nth. rewrite <- EL, EC. apply nth_app_mid.
    + assert (EGc : value (s_trace s) v = c).
      { rewrite EG. rewrite Ec at 1. rewrite <- La, <- Lb, range_app, (keep_none x b1 (find_last_none _ _ EFL)). symmetry. exact Ec. }
      eexists. split; [reflexivity|]. split; [|cbn [sets setv s_vars]; apply upd_length]. exists (fu T v (T v)), (fu H v (H v)).
      apply (inv_update s); [exact J|exact Hv|cbn [sets setv s_vars]; apply upd_length| | |reflexivity|reflexivity| | | | | |exact (owner_keep s T H v (T v) J eq_refl)].
      * intros w Hw. cbn [sets setv s_vars]. apply nth_error_upd_ne. intros X. apply Hw. symmetry. exact X.
      * intros w Hw. cbn [sets setv s_stack]. rewrite EST, (of_stack_skip _ st v w) by (try reflexivity; exact Hw). reflexivity.
      * intros w a0 Hw Hne E. destruct (others s T H v (T v) J Hv eq_refl w a0 Hw Hne E) as [X _]. exact X.
      * unfold slot. cbn [sets setv s_stack s_vars s_heap s_trace]. rewrite N, TK. split; [apply nth_error_upd_eq; exact Hv|].
        split; [rewrite EH, EGc; reflexivity|]. rewrite EH. exact EB.
      * exact U.
      * exact I4.
      * cbn [sets setv s_objs s_own]. eapply counts_ext; [|exact I5]. intros y. rewrite total_keep. reflexivity.
  - (* KFree *)
    cbn [uniq cont_of var_of] in I3. destruct I3 as [[N Hv] U].
    pose proof (I1 v Hv) as SL. unfold slot in SL. rewrite EST in SL. rewrite (of_stack_top (FRun (KFree v a i)) st v (KFree v a i) eq_refl eq_refl) in SL.
    destruct SL as [TK [TH [c [EB [_ [EH EG]]]]]]. cbn [addr] in TK, EB. cbn [rest] in EH. cbn [goal] in EG.
    cbn [resume]. unfold block. rewrite EB. cbn [bind].
    destruct (nth_error c i) as [y|] eqn:EN.
    + apply (drop_ok s (sets s st) T H v y _ c (skipn (S i) c)); [exact J|exact Hv|reflexivity|reflexivity|reflexivity|reflexivity| |exact N|exact U|reflexivity|reflexivity|exact TK|exact TH|exact EB|exact Logic.I|reflexivity|exact EG|].
      * intros w Hw. cbn [sets s_stack]. rewrite EST, (of_stack_skip _ st v w) by (try reflexivity; exact Hw). reflexivity.
      * intros x. rewrite EH. destruct (nth_split_at c i y EN) as [c1 [c2 [-> <-]]]. rewrite skipn_len.
        replace (c1 ++ y :: c2) with ((c1 ++ [y]) ++ c2) by (rewrite <- app_assoc; reflexivity).
        replace (S (length c1)) with (length (c1 ++ [y])) by (rewrite app_length; cbn [length]; lia). rewrite skipn_len. cbn [occ]. lia.
    + assert (EH0 : H v = []) by (rewrite EH; apply skipn_all2; apply nth_error_None; exact EN).
      eexists. split; [reflexivity|]. split; [|cbn [sets setv seth s_vars]; apply upd_length]. exists (fu T v None), (fu H v (H v)).
      apply (inv_update s); [exact J|exact Hv|cbn [sets setv seth s_vars]; apply upd_length| | |reflexivity| | | | | | |].
      * intros w Hw. cbn [sets setv seth s_vars]. apply nth_error_upd_ne. intros X. apply Hw. symmetry. exact X.
      * intros w Hw. cbn [sets setv seth s_stack]. rewrite EST, (of_stack_skip _ st v w) by (try reflexivity; exact Hw). reflexivity.
      * intros w a0 Hw Hne E. destruct (others s T H v (Some a) J Hv TK w a0 Hw Hne E) as [X _]. cbn [sets setv seth s_heap]. apply nth_error_upd_ne.
        intros ->. apply X. reflexivity.
      * discriminate.
      * unfold slot. cbn [sets setv seth s_stack s_vars s_heap s_trace]. rewrite N, EG, EH0. split; [apply nth_error_upd_eq; exact Hv|]. split; reflexivity.
      * exact U.
      * exact I4.
      * cbn [sets setv seth s_objs s_own]. eapply counts_ext; [|exact I5]. intros y. rewrite total_keep. reflexivity.
      * cbn [sets setv seth s_heap]. intros a0 d E0. right. rewrite TK. destruct (Nat.eq_dec a a0) as [<-|Hne].
        -- rewrite nth_error_upd_eq in E0 by exact (nth_error_lt _ _ _ EB). discriminate.
        -- rewrite nth_error_upd_ne in E0 by exact Hne. split; [exact E0|]. intros [= X]. exact (Hne X).
Qed.

Lemma nth_upd_eq (l : list nat) x r : (x < length l)%nat -> nth x (upd l x r) 0%nat = r.
Proof. intros L. apply nth_error_nth. apply nth_error_upd_eq. exact L. Qed.
Lemma nth_upd_ne (l : list nat) x y r : y <> x -> nth y (upd l x r) 0%nat = nth y l 0%nat.
Proof. revert x y. induction l as [|z l IH]; intros [|x] [|y] N; cbn [upd nth]; try reflexivity; try congruence. apply IH. congruence. Qed.
Lemma owns_lt s x : owns s x -> (x < length (s_own s))%nat.
Proof. unfold owns. intros O. destruct (Nat.lt_ge_cases x (length (s_own s))) as [L|L]; [exact L|]. rewrite nth_overflow in O by exact L. lia. Qed.

(* What is found in an array nobody changes *)
Lemma array_ok s T H v : inv_with s T H -> (v < length (s_vars s))%nat -> ~ busy s v ->
  of_stack (s_stack s) v = None /\ nth_error (s_vars s) v = Some (T v) /\ H v = value (s_trace s) v /\
  array s v = Ok (option_map (fun a => (a, H v)) (T v)) /\ (forall a, T v = Some a -> nth_error (s_heap s) a = Some (Some (H v))) /\ (T v = None -> H v = []).
Proof.
  intros [I1 _] Hv NB. pose proof (not_busy s v NB) as ES. specialize (I1 v Hv). unfold slot in I1. rewrite ES in I1. destruct I1 as [E1 [E2 E3]].
  split; [exact ES|]. split; [exact E1|]. split; [exact E2|]. unfold array. rewrite E1. destruct (T v) as [a|].
  - split; [unfold block; rewrite E3; reflexivity|]. split; [intros a0 [= <-]; exact E3|discriminate].
  - split; [reflexivity|]. split; [discriminate|intros _; exact E3].
Qed.
(* The trace grows by something which does not change the value of arrays *)
Lemma inv_log s T H e : inv_with s T H -> (forall w, value (e :: s_trace s) w = value (s_trace s) w) -> inv_with (log s e) T H.
Proof.
  intros J E. pose proof J as [I1 [I2 [I3 [I4 [I5 I6]]]]]. apply (inv_same s); [exact J|reflexivity|reflexivity|reflexivity|exact E|exact I3|exact I4|exact I5].
Qed.
Lemma value_call tr v p w : value (ECall v p :: tr) w = if Nat.eqb v w then changed (value tr w) p else value tr w.
Proof. reflexivity. Qed.
Lemma value_call_ne tr v p w : w <> v -> value (ECall v p :: tr) w = value tr w.
Proof. intros N. rewrite value_call. destruct (Nat.eqb_spec v w) as [E|_]; [destruct (N (eq_sym E))|reflexivity]. Qed.
Lemma value_call_eq tr v p : value (ECall v p :: tr) v = changed (value tr v) p.
Proof. rewrite value_call, Nat.eqb_refl. reflexivity. Qed.
Lemma value_same tr v p : changed (value tr v) p = value tr v -> forall w, value (ECall v p :: tr) w = value tr w.
Proof. intros E w. rewrite value_call. destruct (Nat.eqb_spec v w) as [<-|_]; [exact E|reflexivity]. Qed.

Lemma client_ok s a : inv s -> running s -> careful s a -> apart s a ->
  exists s', client s a = Ok s' /\ inv s' /\ length (s_vars s') = length (s_vars s).
Proof.
  intros [T [H J]] RN CA AP. specialize (CA RN). specialize (AP RN). pose proof J as [I1 [I2 [I3 [I4 [I5 I6]]]]].
  destruct a as [|x|x|v x moved|v x all|v p|v|v w|v i|moved|]; cbn [client].
  - (* ANew *)
    eexists. split; [reflexivity|]. split; [|reflexivity]. exists T, H.
    apply (inv_same s); [exact J|reflexivity|reflexivity|reflexivity|reflexivity|exact I3|cbn [s_own s_objs]; rewrite !app_length, I4; reflexivity|].
    cbn [s_own s_objs]. intros y. specialize (I5 y). destruct (Nat.lt_trichotomy y (length (s_objs s))) as [L|[L|L]].
    + rewrite nth_error_app1 by exact L. rewrite app_nth1 by lia. exact I5.
    + rewrite nth_error_app2 by lia. rewrite app_nth2 by lia. rewrite I4, L, Nat.sub_diag. cbn [nth_error nth].
      assert (E : nth_error (s_objs s) y = None) by (apply nth_error_None; lia). rewrite E in I5. rewrite L in I5. lia.
    + assert (E : nth_error (s_objs s) y = None) by (apply nth_error_None; lia). rewrite E in I5.
      assert (E2 : nth_error (s_objs s ++ [Some 1%nat]) y = None) by (apply nth_error_None; rewrite app_length; cbn [length]; lia). rewrite E2.
      rewrite nth_overflow by (rewrite app_length; cbn [length]; lia). lia.
  - (* ARef *)
    destruct (ref_ok s x _ I5) as [o [E [L C]]]; [unfold owns in CA; cbn beta; lia|]. rewrite E. cbn [bind seto s_own s_objs s_vars s_heap s_stack s_trace].
    eexists. split; [reflexivity|]. split; [|reflexivity]. exists T, H.
    apply (inv_same s); [exact J|reflexivity|reflexivity|reflexivity|reflexivity|exact I3|cbn [s_own s_objs]; rewrite upd_length; lia|].
    cbn [s_own s_objs]. eapply counts_ext; [|exact C]. intros y. cbn beta. cbn [occ]. destruct (Nat.eqb_spec x y) as [<-|Hne].
    + rewrite nth_upd_eq by exact (owns_lt s x CA). lia.
    + rewrite nth_upd_ne by (intros X; apply Hne; symmetry; exact X). lia.
  - (* AUnref *)
    match goal with |- context [unref ?s0 x KDone] => destruct (unref_ok s0 x KDone _ I5) as [s' [f [e [R [V [Hp [O [SK [CF [TR [VL [LO C]]]]]]]]]]]] end;
      [unfold owns in CA; cbn beta; lia|]. cbn [s_vars s_heap s_own s_stack s_trace s_objs] in V, Hp, O, SK, TR, VL, LO, C.
    exists s'. split; [exact R|]. split; [|rewrite V; reflexivity]. exists T, H.
    apply (inv_same s); [exact J|exact V|exact Hp| | | |rewrite O, LO, upd_length; exact I4|].
    + intros u. rewrite SK. apply of_stack_done. exact CF.
    + intros u. rewrite TR. apply VL.
    + rewrite SK. cbn [uniq]. rewrite CF. split; [exact Logic.I|exact I3].
    + rewrite O. eapply counts_ext; [|exact C]. intros y. cbn beta. cbn [occ]. destruct (Nat.eqb_spec x y) as [<-|Hne].
      * rewrite nth_upd_eq by exact (owns_lt s x CA). unfold owns in CA. lia.
      * rewrite nth_upd_ne by (intros X; apply Hne; symmetry; exact X). lia.
  - (* AAdd *)
    destruct CA as [CO CV]. destruct (array_ok s T H v J CV AP) as [ES [EV [EH [EA [EB EN]]]]]. rewrite EA. cbn [bind].
    destruct (ref_ok s x _ I5) as [o [E [L C]]]; [unfold owns in CO; cbn beta; lia|]. rewrite E. cbn [bind seto s_heap].
    assert (D : exists h b, match option_map (fun a => (a, H v)) (T v) with Some (a, c) => realloc (s_heap s) a (c ++ [x]) moved | None => alloc (s_heap s) [x] end = (h, b) /\
        nth_error h b = Some (Some (H v ++ [x])) /\
        (forall w a0, (w < length (s_vars s))%nat -> w <> v -> T w = Some a0 -> Some b <> Some a0 /\ nth_error h a0 = nth_error (s_heap s) a0) /\
        (forall a0 d, nth_error h a0 = Some (Some d) -> Some b = Some a0 \/ (nth_error (s_heap s) a0 = Some (Some d) /\ T v <> Some a0))).
    { pose proof (others s T H v (T v) J CV eq_refl) as OT. destruct (T v) as [a|] eqn:ETv; cbn [option_map].
      - destruct (realloc (s_heap s) a (H v ++ [x]) moved) as [h b] eqn:ER. exists h, b. split; [reflexivity|].
        destruct (realloc_ok _ _ _ _ _ _ _ (EB a eq_refl) ER) as [Rb [Rab [Rw Rc]]]. split; [exact Rb|]. split.
        2: { intros a0 d E0. destruct (Rc a0 d E0) as [->|[X1 X2]]; [left; reflexivity|]. right. split; [exact X1|]. intros [= X]. exact (X2 (eq_sym X)). }
        intros w a0 Hw Hne E0. destruct (OT w a0 Hw Hne E0) as [X1 [[d X2] X3]]. split.
        + destruct Rab as [->| ->]; [exact X1|]. intros [= <-]. lia.
        + rewrite X2. apply Rw; [|exact X2]. intros ->. apply X1. reflexivity.
      - destruct (alloc (s_heap s) [x]) as [h b] eqn:ER. exists h, b. split; [reflexivity|]. destruct (alloc_ok _ _ _ _ ER) as [Rb [Rl [Rw Rc]]].
        rewrite (EN eq_refl). split; [exact Rb|]. split.
        2: { intros a0 d E0. destruct (Rc a0 d E0) as [->|X1]; [left; reflexivity|]. right. split; [exact X1|]. discriminate. }
        intros w a0 Hw Hne E0. destruct (OT w a0 Hw Hne E0) as [X1 [[d X2] X3]].
        split; [intros [= <-]; lia|]. rewrite X2. apply Rw. exact X2. }
    destruct D as [h [b [-> [Db [DO OW]]]]]. eexists. split; [reflexivity|]. split; [|cbn [log setv seth s_vars]; apply upd_length].
    exists (fu T v (Some b)), (fu H v (H v ++ [x])).
    apply (inv_update s); [exact J|exact CV|cbn [log setv seth seto s_vars]; apply upd_length| |reflexivity| | | | |exact I3|cbn [log setv seth seto s_own s_objs]; lia| |exact OW];
      cbn [log setv seth seto s_vars s_heap s_objs s_own s_stack s_trace].
    + intros u Hu. apply nth_error_upd_ne. intros X. apply Hu. symmetry. exact X.
    + intros u Hu. apply value_call_ne. exact Hu.
    + intros u a0 Hu Hne E0. destruct (DO u a0 Hu Hne E0) as [_ X]. exact X.
    + intros u a0 Hu Hne E0. destruct (DO u a0 Hu Hne E0) as [X _]. exact X.
    + unfold slot. cbn [log setv seth seto s_vars s_heap s_objs s_own s_stack s_trace]. rewrite ES. split; [apply nth_error_upd_eq; exact CV|].
      split; [rewrite value_call_eq, EH; reflexivity|exact Db].
    + eapply counts_ext; [|exact C]. intros y. cbn beta. pose proof (total_fu H (length (s_vars s)) v (H v ++ [x]) y CV) as X. rewrite occ_app in X. lia.
  - (* ARemove *)
    destruct (array_ok s T H v J CA AP) as [ES [EV [EH [EA [EB EN]]]]]. rewrite EA. cbn [bind].
    destruct (T v) as [a|] eqn:ETv; cbn [option_map].
    + destruct (find x (H v)) as [p|] eqn:EF.
      * destruct (find_some x _ p EF) as [c1 [c2 [Ec [Lp NI]]]].
        assert (EL : (length (H v) - 1 - p = length c2)%nat) by (rewrite Ec, app_length; cbn [length]; lia).
        assert (ERM : remove_nth p (H v) = c1 ++ c2) by (rewrite Ec, <- Lp; apply remove_nth_app).
        apply (drop_ok s (log s (ECall v (PRemove x all))) T H v x _ (H v) (remove_nth p (H v)));
          [exact J|exact CA|reflexivity|reflexivity|reflexivity|reflexivity|reflexivity|exact ES|exact I3| |reflexivity|exact ETv|rewrite ETv; intros _; exact EV|exact (EB a eq_refl)| |reflexivity| |].
        -- intros u Hu. apply value_call_ne. exact Hu.
        -- assert (LC : length (H v) = (length c1 + 1 + length c2)%nat) by (rewrite Ec, app_length; cbn [length]; lia).
           cbn [wf]. split; [reflexivity|]. split; [lia|]. intros _. lia.
        -- cbn [log s_trace]. rewrite value_call_eq, <- EH. cbn [goal]. rewrite ERM. destruct all; cbn [changed].
           ++ fold (keep x (H v)). rewrite EL. rewrite <- Lp. rewrite <- (app_nil_r c2) at 1. rewrite range_app, app_nil_r.
              rewrite Ec, keep_app, keep_cons, (keep_none x c1 NI). reflexivity.
           ++ rewrite Ec. apply remove_first_app. exact NI.
        -- intros y. apply occ_nth. rewrite Ec, <- Lp. apply nth_app_mid.
      * eexists. split; [reflexivity|]. split; [|reflexivity]. exists T, H. apply inv_log; [exact J|]. apply value_same. rewrite <- EH.
        destruct all; cbn [changed]; [apply keep_none|apply remove_first_none]; exact (find_none _ _ EF).
    + eexists. split; [reflexivity|]. split; [|reflexivity]. exists T, H. apply inv_log; [exact J|]. apply value_same. rewrite <- EH, (EN eq_refl).
      destruct all; reflexivity.
  - (* ARemoveAt *)
    destruct (array_ok s T H v J CA AP) as [ES [EV [EH [EA [EB EN]]]]]. rewrite EA. cbn [bind].
    destruct (T v) as [a|] eqn:ETv; cbn [option_map].
    + destruct (nth_error (H v) p) as [y|] eqn:EF.
      * pose proof (nth_error_lt _ _ _ EF) as LP.
        apply (drop_ok s (log s (ECall v (PRemoveAt p))) T H v y _ (H v) (remove_nth p (H v)));
          [exact J|exact CA|reflexivity|reflexivity|reflexivity|reflexivity|reflexivity|exact ES|exact I3| |reflexivity|exact ETv|rewrite ETv; intros _; exact EV|exact (EB a eq_refl)| |reflexivity| |].
        -- intros u Hu. apply value_call_ne. exact Hu.
        -- cbn [wf]. split; [reflexivity|]. split; [exact LP|discriminate].
        -- cbn [log s_trace]. rewrite value_call_eq, <- EH. cbn [goal changed]. symmetry. apply remove_nth_spec. exact LP.
        -- intros z. apply occ_nth. exact EF.
      * eexists. split; [reflexivity|]. split; [|reflexivity]. exists T, H. apply inv_log; [exact J|]. apply value_same. rewrite <- EH.
        apply nth_error_None in EF. cbn [changed]. rewrite firstn_all2 by exact EF. rewrite skipn_all2 by lia. apply app_nil_r.
    + eexists. split; [reflexivity|]. split; [|reflexivity]. exists T, H. apply inv_log; [exact J|]. apply value_same. rewrite <- EH, (EN eq_refl).
      cbn [changed]. rewrite firstn_nil, skipn_nil. reflexivity.
  - (* AFree *)
    destruct (array_ok s T H v J CA AP) as [ES [EV [EH [EA [EB EN]]]]]. rewrite EA. cbn [bind].
    destruct (T v) as [a|] eqn:ETv; cbn [option_map].
    + eexists. split; [reflexivity|]. split; [|reflexivity]. exists (fu T v (T v)), (fu H v (H v)).
      apply (inv_update s); [exact J|exact CA|reflexivity|reflexivity| | |reflexivity| | | |exact I4| |exact (owner_keep s T H v (T v) J eq_refl)]; cbn [log sets s_vars s_heap s_objs s_own s_stack s_trace].
      * intros u Hu. apply of_stack_skip with (v := v); [reflexivity|exact Hu].
      * intros u Hu. apply value_call_ne. exact Hu.
      * intros u a0 Hu Hne E. destruct (others s T H v (T v) J CA eq_refl u a0 Hu Hne E) as [X _]. exact X.
      * unfold slot. cbn [log sets s_vars s_heap s_objs s_own s_stack s_trace]. rewrite (of_stack_top (FRun (KFree v a 0)) _ v (KFree v a 0) eq_refl eq_refl).
        cbn [addr]. split; [exact ETv|]. split; [intros _; rewrite ETv; exact EV|]. exists (H v). split; [exact (EB a eq_refl)|]. split; [exact Logic.I|]. split; [reflexivity|].
        rewrite value_call_eq. reflexivity.
      * cbn [uniq cont_of var_of]. split; [split; [exact ES|exact CA]|exact I3].
      * eapply counts_ext; [|exact I5]. intros y. rewrite total_keep. reflexivity.
    + eexists. split; [reflexivity|]. split; [|reflexivity]. exists T, H. apply inv_log; [exact J|]. apply value_same. rewrite <- EH, (EN eq_refl). reflexivity.
  - (* ACopy *)
    destruct CA as [CV CW]. destruct AP as [AV AW]. assert (HW : (w < length (s_vars s))%nat) by exact (nth_error_lt _ _ _ CW).
    destruct (array_ok s T H v J CV AV) as [ES [EV [EH [EA [EB EN]]]]]. destruct (array_ok s T H w J HW AW) as [ESw [EVw [EHw [_ [_ ENw]]]]].
    assert (ETw : T w = None) by (rewrite CW in EVw; injection EVw as <-; reflexivity). specialize (ENw ETw).
    rewrite EA. cbn [bind].
    assert (VL : forall u, u <> w -> value (ECopy v w :: s_trace s) u = value (s_trace s) u).
    { intros u Hu. cbn [value]. destruct (Nat.eqb_spec w u) as [X|_]; [destruct (Hu (eq_sym X))|reflexivity]. }
    assert (VW : value (ECopy v w :: s_trace s) w = H v) by (cbn [value]; rewrite Nat.eqb_refl, EH; reflexivity).
    destruct (T v) as [a|] eqn:ETv; cbn [option_map].
    + destruct (refs_ok s (H v) _ I5) as [o [E [L C]]].
      { intros y Hy. pose proof (total_ge H (length (s_vars s)) v y CV). pose proof (occ_in y _ Hy). lia. }
      rewrite E. cbn [bind seto s_heap]. destruct (alloc (s_heap s) (H v)) as [h b] eqn:ER. destruct (alloc_ok _ _ _ _ ER) as [Rb [Rl [Rw Rc]]].
      eexists. split; [reflexivity|]. split; [|cbn [log setv seth s_vars]; apply upd_length]. exists (fu T w (Some b)), (fu H w (H v)).
      apply (inv_update s); [exact J|exact HW|cbn [log setv seth seto s_vars]; apply upd_length| |reflexivity| | | | |exact I3|cbn [log setv seth seto s_own s_objs]; lia| |];
        cbn [log setv seth seto s_vars s_heap s_objs s_own s_stack s_trace].
      * intros u Hu. apply nth_error_upd_ne. intros X. apply Hu. symmetry. exact X.
      * exact VL.
      * intros u a0 Hu Hne E0. destruct (others s T H w None J HW ETw u a0 Hu Hne E0) as [_ [[d X2] _]]. rewrite X2. apply Rw. exact X2.
      * intros u a0 Hu Hne E0 [= <-]. destruct (others s T H w None J HW ETw u b Hu Hne E0) as [_ [_ X]]. lia.
      * unfold slot. cbn [log setv seth seto s_vars s_heap s_objs s_own s_stack s_trace]. rewrite ESw. split; [apply nth_error_upd_eq; exact HW|].
        split; [rewrite VW; reflexivity|exact Rb].
      * eapply counts_ext; [|exact C]. intros y. cbn beta. pose proof (total_fu H (length (s_vars s)) w (H v) y HW) as X. rewrite ENw in X. cbn [occ] in X. lia.
      * intros a0 d E0. destruct (Rc a0 d E0) as [->|X1]; [left; reflexivity|]. right. split; [exact X1|]. rewrite ETw. discriminate.
    + eexists. split; [reflexivity|]. split; [|cbn [log setv s_vars]; apply upd_length]. exists (fu T w None), (fu H w (H w)).
      apply (inv_update s); [exact J|exact HW|cbn [log setv s_vars]; apply upd_length| |reflexivity| |reflexivity|discriminate| |exact I3|exact I4| |exact (owner_keep s T H w None J ETw)];
        cbn [log setv s_vars s_heap s_objs s_own s_stack s_trace].
      * intros u Hu. apply nth_error_upd_ne. intros X. apply Hu. symmetry. exact X.
      * exact VL.
      * unfold slot. cbn [log setv s_vars s_heap s_objs s_own s_stack s_trace]. rewrite ESw. split; [apply nth_error_upd_eq; exact HW|].
        rewrite VW, ENw, (EN eq_refl). split; reflexivity.
      * eapply counts_ext; [|exact I5]. intros y. rewrite total_keep. reflexivity.
  - (* AUse *)
    destruct CA as [CV CI]. destruct (array_ok s T H v J CV AP) as [ES [EV [EH [EA [EB EN]]]]]. rewrite EA. cbn [bind]. rewrite <- EH in CI.
    destruct (T v) as [a|] eqn:ETv; cbn [option_map]; [|rewrite (EN eq_refl) in CI; cbn [length] in CI; lia].
    destruct (nth_error (H v) i) as [x|] eqn:EX; [|apply nth_error_None in EX; lia].
    rewrite (counts_alive _ _ x I5).
    + exists s. split; [reflexivity|]. split; [exists T, H; exact J|reflexivity].
    + pose proof (total_ge H (length (s_vars s)) v x CV). pose proof (occ_in x _ (nth_error_In _ _ EX)). lia.
  - exists s. split; [reflexivity|]. split; [exists T, H; exact J|reflexivity].
  - (* AReturn *)
    destruct (s_stack s) as [|[k|k] st] eqn:EST.
    + exists s. split; [reflexivity|]. split; [exists T, H; exact J|reflexivity].
    + exists s. split; [reflexivity|]. split; [exists T, H; exact J|reflexivity].
    + eexists. split; [reflexivity|]. split; [|reflexivity]. exists T, H.
      apply (inv_same s); [exact J|reflexivity|reflexivity| |reflexivity| |exact I4|exact I5].
      * intros u. cbn [sets s_stack]. rewrite EST. reflexivity.
      * exact I3.
Qed.

Lemma step_ok s a : inv s -> careful s a -> apart s a -> exists s', step s a = Ok s' /\ inv s' /\ length (s_vars s') = length (s_vars s).
Proof.
  intros IV CA AP. unfold step. destruct (s_stack s) as [|[k|k] st] eqn:EST.
  - apply client_ok; [exact IV|unfold running; rewrite EST; exact Logic.I|exact CA|exact AP].
  - destruct a as [|x|x|v x moved|v x all|v p|v|v w|v i|moved|]; try (exists s; split; [reflexivity|]; split; [exact IV|reflexivity]).
    apply resume_ok; [exact IV|exact EST].
  - apply client_ok; [exact IV|unfold running; rewrite EST; exact Logic.I|exact CA|exact AP].
Qed.
Lemma total_nil n x : total (fun _ => []) n x = 0%nat.
Proof. induction n as [|n IH]; cbn [total]; [reflexivity|]. rewrite IH. reflexivity. Qed.
Lemma start_inv n : inv (start n).
Proof.
  exists (fun _ => None), (fun _ => []). unfold inv_with, start. cbn [s_vars s_heap s_objs s_own s_stack s_trace]. split; [|split; [discriminate|split; [exact Logic.I|split; [reflexivity|split]]]].
  - intros v Hv. rewrite repeat_length in Hv. unfold slot. cbn [s_vars s_stack of_stack s_trace value]. split; [|split; reflexivity].
    apply nth_error_repeat. exact Hv.
  - intros x. destruct x; cbn [nth_error nth]; rewrite total_nil; reflexivity.
  - intros a c. destruct a; discriminate.
Qed.
Lemma run_inv s l : inv s -> along careful s l -> along apart s l -> exists s', run s l = Ok s' /\ inv s' /\ length (s_vars s') = length (s_vars s).
Proof.
  revert s. induction l as [|a l IH]; intros s IV; cbn [along run]; [intros _ _; exists s; split; [reflexivity|split; [exact IV|reflexivity]]|].
  intros [C CL] [A AL]. destruct (step_ok s a IV C A) as [s1 [E [IV1 L1]]]. rewrite E in *. cbn [bind].
  destruct (IH s1 IV1 CL AL) as [s2 [E2 [IV2 L2]]]. exists s2. split; [exact E2|]. split; [exact IV2|]. rewrite L2. exact L1.
Qed.
