(* C99: arrays of objects when finalizers of objects use arrays. *)
From Verif Require Import Base FinalModel FinalSpec FinalProofs.

(* ---- For all clients ---- *)
Definition fin (s : state) : Prop := forall x, finals x (s_trace s) = match nth_error (s_objs s) x with Some None => 1%nat | _ => 0%nat end.
Lemma unref_fin s x k s' : fin s -> unref s x k = Ok s' -> fin s'.
Proof.
  intros F. unfold unref. destruct (nth_error (s_objs s) x) as [[[|[|n]]|]|] eqn:E; try discriminate; intros [= <-] y; specialize (F y);
    cbn [sets log seto s_trace s_objs finals]; destruct (Nat.eqb_spec x y) as [<-|Hne];
    rewrite ?(nth_error_upd_eq _ _ _ (nth_error_lt _ _ _ E)), ?nth_error_upd_ne by exact Hne; rewrite ?E in F; rewrite F; reflexivity.
Qed.
Lemma ref_fin s x s' : fin s -> ref s x = Ok s' -> fin s'.
Proof.
  intros F. unfold ref. destruct (nth_error (s_objs s) x) as [[n|]|] eqn:E; try discriminate. intros [= <-] y. specialize (F y).
  cbn [seto s_trace s_objs]. destruct (Nat.eq_dec x y) as [<-|Hne].
  - rewrite (nth_error_upd_eq _ _ _ (nth_error_lt _ _ _ E)). rewrite E in F. exact F.
  - rewrite nth_error_upd_ne by exact Hne. exact F.
Qed.
Lemma refs_fin c : forall s s', fin s -> refs s c = Ok s' -> fin s'.
Proof.
  induction c as [|x c IH]; intros s s' F; cbn [refs]; [intros [= <-]; exact F|].
  destruct (ref s x) as [s1|e] eqn:E; [|discriminate]. cbn [bind]. apply IH. exact (ref_fin _ _ _ F E).
Qed.
Lemma fin_same s s' : s_trace s' = s_trace s -> s_objs s' = s_objs s -> fin s -> fin s'.
Proof. intros E1 E2 F x. rewrite E1, E2. exact (F x). Qed.
Lemma fin_call s e : match e with EFinal _ => False | _ => True end -> fin s -> fin (log s e).
Proof. intros E F x. destruct e; [exact (F x)|exact (F x)|destruct E]. Qed.
Lemma step_fin s a s' : fin s -> step s a = Ok s' -> fin s'.
Proof.
  intros F. unfold step.
  assert (CL : client s a = Ok s' -> fin s').
  { destruct a as [|x|x|v x moved|v x all|v p|v|v w|v i|moved|]; cbn [client].
    - intros [= <-] y. specialize (F y). cbn [s_trace s_objs]. destruct (Nat.lt_ge_cases y (length (s_objs s))) as [L|L].
      + rewrite nth_error_app1 by exact L. exact F.
      + rewrite nth_error_app2 by exact L. assert (N : nth_error (s_objs s) y = None) by (apply nth_error_None; exact L). rewrite N in F. rewrite F.
        destruct (y - length (s_objs s))%nat as [|[|m]]; reflexivity.
    - destruct (ref s x) as [s1|e] eqn:E; [|discriminate]. cbn [bind]. intros [= <-]. apply (fin_same s1); [reflexivity|reflexivity|exact (ref_fin _ _ _ F E)].
    - apply unref_fin. apply (fin_same s); [reflexivity|reflexivity|exact F].
    - destruct (array s v) as [r|e]; [|discriminate]. cbn [bind]. destruct (ref s x) as [s1|e] eqn:E; [|discriminate]. cbn [bind].
      destruct (match r with Some (a, c) => realloc (s_heap s1) a (c ++ [x]) moved | None => alloc (s_heap s1) [x] end) as [h b].
      intros [= <-]. apply fin_call; [exact Logic.I|]. apply (fin_same s1); [reflexivity|reflexivity|exact (ref_fin _ _ _ F E)].
    - destruct (array s v) as [[[b c]|]|e]; [| |discriminate]; cbn [bind].
      + destruct (find x c) as [p|]; [apply unref_fin; apply fin_call; [exact Logic.I|exact F]|]. intros [= <-]. apply fin_call; [exact Logic.I|exact F].
      + intros [= <-]. apply fin_call; [exact Logic.I|exact F].
    - destruct (array s v) as [[[b c]|]|e]; [| |discriminate]; cbn [bind].
      + destruct (nth_error c p) as [y|]; [apply unref_fin; apply fin_call; [exact Logic.I|exact F]|]. intros [= <-]. apply fin_call; [exact Logic.I|exact F].
      + intros [= <-]. apply fin_call; [exact Logic.I|exact F].
    - destruct (array s v) as [[[b c]|]|e]; [| |discriminate]; cbn [bind].
      + intros [= <-]. apply (fin_same (log s (ECall v PFree))); [reflexivity|reflexivity|]. apply fin_call; [exact Logic.I|exact F].
      + intros [= <-]. apply fin_call; [exact Logic.I|exact F].
    - destruct (array s v) as [[[b c]|]|e]; [| |discriminate]; cbn [bind].
      + destruct (refs s c) as [s1|e] eqn:E; [|discriminate]. cbn [bind]. destruct (alloc (s_heap s1) c) as [h b1]. intros [= <-].
        apply fin_call; [exact Logic.I|]. apply (fin_same s1); [reflexivity|reflexivity|exact (refs_fin _ _ _ F E)].
      + intros [= <-]. apply fin_call; [exact Logic.I|]. apply (fin_same s); [reflexivity|reflexivity|exact F].
    - destruct (array s v) as [[[b c]|]|e]; [|discriminate|discriminate]; cbn [bind]. destruct (nth_error c i) as [x|]; [|discriminate].
      destruct (nth_error (s_objs s) x) as [[n|]|]; [|discriminate|discriminate]. intros [= <-]. exact F.
    - intros [= <-]. exact F.
    - destruct (s_stack s) as [|[k|k] st]; intros [= <-]; [exact F|exact F|]. apply (fin_same s); [reflexivity|reflexivity|exact F]. }
  destruct (s_stack s) as [|[k|k] st]; [exact CL| |exact CL]. clear CL.
  destruct a as [|x|x|v x moved|v x all|v p|v|v w|v i|moved|]; try (intros [= <-]; exact F).
  destruct k as [|v a base p len x all l|v a base len x l|v a i]; cbn [resume].
  - intros [= <-]. apply (fin_same s); [reflexivity|reflexivity|exact F].
  - destruct (block s a) as [c|e]; [|discriminate]. cbn [bind]. destruct (Nat.eqb (length c) len); [|discriminate].
    destruct (realloc (s_heap s) a (remove_nth p c) moved) as [h b]. destruct all; intros [= <-]; (apply (fin_same s); [reflexivity|reflexivity|exact F]).
  - destruct (block s a) as [c|e]; [|discriminate]. cbn [bind]. destruct (find_last x (firstn l (skipn base c))) as [i|].
    + apply unref_fin. apply (fin_same s); [reflexivity|reflexivity|exact F].
    + intros [= <-]. apply (fin_same s); [reflexivity|reflexivity|exact F].
  - destruct (block s a) as [c|e]; [|discriminate]. cbn [bind]. destruct (nth_error c i) as [y|].
    + apply unref_fin. apply (fin_same s); [reflexivity|reflexivity|exact F].
    + intros [= <-]. apply (fin_same s); [reflexivity|reflexivity|exact F].
Qed.

(* No object is finalized twice; objects which are gone have been finalized. *)
Theorem C99_once : forall n l s x, run (start n) l = Ok s ->
  (finals x (s_trace s) <= 1)%nat /\ (finals x (s_trace s) = 1%nat <-> nth_error (s_objs s) x = Some None).
Proof.
  intros n l s x R.
  assert (F : fin s).
  { assert (F0 : fin (start n)) by (intros y; cbn [start s_trace s_objs finals]; destruct y; reflexivity).
    revert F0 R. generalize (start n) as s0. induction l as [|a l IH]; intros s0 F0; cbn [run]; [intros [= <-]; exact F0|].
    destruct (step s0 a) as [s1|e] eqn:E; [|discriminate]. cbn [bind]. apply IH. exact (step_fin _ _ _ F0 E). }
  rewrite (F x). destruct (nth_error (s_objs s) x) as [[r|]|]; (split; [lia|]); split; intros X; try discriminate X; reflexivity.
Qed.
Print Assumptions C99_once.

(* ---- For clients which leave arrays alone while these are being changed ---- *)

(* Nothing goes wrong. *)
Theorem C99_safe_partial : forall n l, along careful (start n) l -> along apart (start n) l -> exists s, run (start n) l = Ok s.
Proof. intros n l C A. destruct (run_inv _ l (start_inv n) C A) as [s [R _]]. exists s. exact R. Qed.
Print Assumptions C99_safe_partial.

Lemma run_inv_at n l s : along careful (start n) l -> along apart (start n) l -> run (start n) l = Ok s -> inv s /\ length (s_vars s) = n.
Proof.
  intros C A R. destruct (run_inv _ l (start_inv n) C A) as [s' [R' [IV L]]]. rewrite R in R'. injection R' as <-. split; [exact IV|].
  rewrite L. apply repeat_length.
Qed.
(* Arrays have what the calls which have returned are to leave in them, whatever has been done to other arrays inside of these calls. *)
Theorem C99_value_partial : forall n l s v, along careful (start n) l -> along apart (start n) l -> run (start n) l = Ok s ->
  (v < n)%nat -> ~ busy s v -> contents s v = Some (value (s_trace s) v).
Proof.
  intros n l s v C A R Hv NB. destruct (run_inv_at n l s C A R) as [[T [H J]] L]. rewrite <- L in Hv.
  destruct (array_ok s T H v J Hv NB) as [_ [EV [EH [_ [EB EN]]]]]. unfold contents. rewrite EV. destruct (T v) as [a|] eqn:E.
  - rewrite (EB a eq_refl), EH. reflexivity.
  - rewrite <- EH, (EN eq_refl). reflexivity.
Qed.
Print Assumptions C99_value_partial.

(* All that is in such an array may be used. *)
Theorem C99_alive_partial : forall n l s v x, along careful (start n) l -> along apart (start n) l -> run (start n) l = Ok s ->
  (v < n)%nat -> ~ busy s v -> In x (value (s_trace s) v) -> exists r, nth_error (s_objs s) x = Some (Some r).
Proof.
  intros n l s v x C A R Hv NB X. destruct (run_inv_at n l s C A R) as [[T [H J]] L]. rewrite <- L in Hv.
  destruct (array_ok s T H v J Hv NB) as [_ [_ [EH _]]]. rewrite <- EH in X. destruct J as [_ [_ [_ [_ [I5 _]]]]].
  eexists. apply (counts_alive _ _ x I5). pose proof (total_ge H (length (s_vars s)) v x Hv). pose proof (occ_in x _ X). lia.
Qed.
Print Assumptions C99_alive_partial.

Lemma total_held s T H n : inv_with s T H -> s_stack s = [] -> (n <= length (s_vars s))%nat -> forall x, total H n x = held (s_trace s) n x.
Proof.
  intros [I1 _] ES. induction n as [|n IH]; intros L x; cbn [total held]; [reflexivity|]. rewrite IH by lia.
  specialize (I1 n ltac:(lia)). unfold slot in I1. rewrite ES in I1. cbn [of_stack] in I1. destruct I1 as [_ [-> _]]. reflexivity.
Qed.
(* When all calls are over, an object has exactly the references of the client and of arrays; it is gone if there are none. *)
Theorem C99_counts_partial : forall n l s x, along careful (start n) l -> along apart (start n) l -> run (start n) l = Ok s -> s_stack s = [] ->
  (x < length (s_objs s))%nat ->
  nth_error (s_objs s) x = Some (match (nth x (s_own s) 0 + held (s_trace s) n x)%nat with O => None | S r => Some (S r) end).
Proof.
  intros n l s x C A R ES Hx. destruct (run_inv_at n l s C A R) as [[T [H J]] L]. pose proof (total_held s T H n J ES ltac:(lia) x) as E.
  destruct J as [_ [_ [_ [_ [I5 _]]]]]. specialize (I5 x). cbn beta in I5. rewrite L, E in I5. destruct (nth_error (s_objs s) x) as [[r|]|] eqn:EX.
  - destruct I5 as [<- P]. destruct r as [|r]; [lia|reflexivity].
  - rewrite I5. reflexivity.
  - apply nth_error_None in EX. lia.
Qed.
Print Assumptions C99_counts_partial.

Lemma uniq_of n st f v : uniq n st -> In f st -> var_of (cont_of f) = Some v -> of_stack st v = Some (cont_of f) /\ (v < n)%nat.
Proof.
  induction st as [|g st IH]; intros U Hin0 E; [destruct Hin0|]. cbn [uniq] in U. destruct U as [U1 U2]. destruct Hin0 as [<-|Hin].
  - rewrite E in U1. destruct U1 as [_ Hv]. split; [apply of_stack_top; [reflexivity|exact E]|exact Hv].
  - destruct (IH U2 Hin E) as [IH1 IH2]. split; [|exact IH2]. cbn [of_stack]. destruct (var_of (cont_of g)) as [w|]; [|exact IH1].
    destruct (Nat.eqb_spec w v) as [->|_]; [|exact IH1]. destruct U1 as [U1 _]. rewrite IH1 in U1. discriminate.
Qed.
(* No memory is leaked: when all calls are over, a block is in a variable. *)
Theorem C99_memory_partial : forall n l s a c, along careful (start n) l -> along apart (start n) l -> run (start n) l = Ok s -> s_stack s = [] ->
  nth_error (s_heap s) a = Some (Some c) -> exists v, nth_error (s_vars s) v = Some (Some a).
Proof.
  intros n l s a c C A R ES E. destruct (run_inv_at n l s C A R) as [[T [H J]] L]. destruct J as [I1 [_ [_ [_ [_ I6]]]]].
  destruct (I6 a c E) as [v [Hv Ev]]. specialize (I1 v Hv). unfold slot in I1. rewrite ES in I1. cbn [of_stack] in I1. destruct I1 as [X _].
  exists v. rewrite X, Ev. reflexivity.
Qed.
Print Assumptions C99_memory_partial.

(* While one object is being removed, it is still in the array; all others may be used. *)
Theorem C99_removing_partial : forall n l s f v a base p len x k, along careful (start n) l -> along apart (start n) l -> run (start n) l = Ok s ->
  In f (s_stack s) -> cont_of f = KMove v a base p len x false k ->
  exists c y d, contents s v = Some (c ++ y :: d) /\ length c = p /\ value (s_trace s) v = c ++ d /\
    forall z, In z (c ++ d) -> exists r, nth_error (s_objs s) z = Some (Some r).
Proof.
  intros n l s f v a base p len x k C A R Hin EF. destruct (run_inv_at n l s C A R) as [[T [H J]] L]. pose proof J as [I1 [_ [U [_ [I5 _]]]]].
  destruct (uniq_of _ _ f v U Hin ltac:(rewrite EF; reflexivity)) as [ES Hv]. pose proof (I1 v Hv) as SL. unfold slot in SL. rewrite ES, EF in SL.
  destruct SL as [ET [TH [c [EB [[W1 [W2 _]] [EH EG]]]]]]. cbn [addr] in ET, EB. cbn [rest] in EH. cbn [goal] in EG. rewrite <- W1 in W2.
  destruct (nth_error c p) as [y|] eqn:EN; [|apply nth_error_None in EN; lia]. destruct (nth_split_at c p y EN) as [c1 [c2 [Ec Lp]]].
  assert (ER : remove_nth p c = c1 ++ c2) by (rewrite Ec, <- Lp; apply remove_nth_app).
  exists c1, y, c2. split; [unfold contents; rewrite (TH eq_refl), ET, EB, Ec; reflexivity|]. split; [exact Lp|]. split; [rewrite EG; exact ER|].
  intros z Hz. rewrite <- ER, <- EH in Hz. eexists. apply (counts_alive _ _ z I5). pose proof (total_ge H (length (s_vars s)) v z Hv). pose proof (occ_in z _ Hz). lia.
Qed.
Print Assumptions C99_removing_partial.

(* While an array is being freed, the objects up to position i are still in it, and those behind may be used. *)
Theorem C99_freeing_partial : forall n l s f v a i, along careful (start n) l -> along apart (start n) l -> run (start n) l = Ok s ->
  In f (s_stack s) -> cont_of f = KFree v a i ->
  exists c, contents s v = Some c /\ forall j z, (i <= j)%nat -> nth_error c j = Some z -> exists r, nth_error (s_objs s) z = Some (Some r).
Proof.
  intros n l s f v a i C A R Hin EF. destruct (run_inv_at n l s C A R) as [[T [H J]] L]. pose proof J as [I1 [_ [U [_ [I5 _]]]]].
  destruct (uniq_of _ _ f v U Hin ltac:(rewrite EF; reflexivity)) as [ES Hv]. pose proof (I1 v Hv) as SL. unfold slot in SL. rewrite ES, EF in SL.
  destruct SL as [ET [TH [c [EB [_ [EH _]]]]]]. cbn [addr] in ET, EB. cbn [rest] in EH.
  exists c. split; [unfold contents; rewrite (TH eq_refl), ET, EB; reflexivity|]. intros j z Hj Ej.
  assert (Hz : In z (H v)).
  { rewrite EH. rewrite <- (firstn_skipn i c) in Ej. rewrite nth_error_app2 in Ej by (rewrite firstn_length; lia). exact (nth_error_In _ _ Ej). }
  eexists. apply (counts_alive _ _ z I5). pose proof (total_ge H (length (s_vars s)) v z Hv). pose proof (occ_in z _ Hz). lia.
Qed.
Print Assumptions C99_freeing_partial.

(* ---- Deciders for examples ---- *)
Fixpoint alongb (P : state -> action -> bool) (s : state) (l : list action) : bool :=
  match l with [] => true | a :: l => P s a && match step s a with Ok s => alongb P s l | Fail _ => true end end.
Lemma alongb_ok (P : state -> action -> bool) (Q : state -> action -> Prop) : (forall s a, P s a = true -> Q s a) ->
  forall l s, alongb P s l = true -> along Q s l.
Proof.
  intros PQ. induction l as [|a l IH]; intros s; cbn [alongb along]; [intros _; exact Logic.I|].
  intros H. apply andb_true_iff in H. destruct H as [H1 H2]. split; [exact (PQ s a H1)|]. destruct (step s a) as [s1|e]; [exact (IH s1 H2)|exact Logic.I].
Qed.
Definition runningb (s : state) : bool := match s_stack s with FRun _ :: _ => false | _ => true end.
Lemma runningb_ok s : running s -> runningb s = true.
Proof. unfold running, runningb. destruct (s_stack s) as [|[k|k] st]; [reflexivity|intros []|reflexivity]. Qed.
Definition busyb (s : state) (v : nat) : bool := match of_stack (s_stack s) v with Some _ => true | None => false end.
Lemma busyb_ok s v : busyb s v = false -> ~ busy s v.
Proof. unfold busyb. intros E B. apply of_stack_busy in B. destruct (of_stack (s_stack s) v); [discriminate|apply B; reflexivity]. Qed.
Definition carefulb (s : state) (a : action) : bool :=
  negb (runningb s) ||
  match a with
  | ARef x | AUnref x => Nat.ltb 0 (nth x (s_own s) 0%nat)
  | AAdd v x _ => Nat.ltb 0 (nth x (s_own s) 0%nat) && Nat.ltb v (length (s_vars s))
  | ARemove v _ _ | ARemoveAt v _ | AFree v => Nat.ltb v (length (s_vars s))
  | ACopy v w => Nat.ltb v (length (s_vars s)) && match nth_error (s_vars s) w with Some None => true | _ => false end
  | AUse v i => Nat.ltb v (length (s_vars s)) && Nat.ltb i (length (value (s_trace s) v))
  | _ => true
  end.
Lemma carefulb_ok s a : carefulb s a = true -> careful s a.
Proof.
  unfold carefulb, careful, owns, variable. intros H RN. rewrite (runningb_ok s RN) in H. cbn [negb orb] in H.
  destruct a; try exact Logic.I; rewrite ?andb_true_iff in H; rewrite ?Nat.ltb_lt in H; try exact H.
  destruct H as [H1 H2]. split; [exact H1|]. destruct (nth_error (s_vars s) w) as [[a|]|]; [discriminate|reflexivity|discriminate].
Qed.
Definition apartb (s : state) (a : action) : bool :=
  negb (runningb s) ||
  match a with
  | AAdd v _ _ | ARemove v _ _ | ARemoveAt v _ | AFree v | AUse v _ => negb (busyb s v)
  | ACopy v w => negb (busyb s v) && negb (busyb s w)
  | _ => true
  end.
Lemma apartb_ok s a : apartb s a = true -> apart s a.
Proof.
  unfold apartb, apart. intros H RN. rewrite (runningb_ok s RN) in H. cbn [negb orb] in H.
  destruct a; try exact Logic.I; rewrite ?andb_true_iff in H; rewrite ?negb_true_iff in H; try (apply busyb_ok; exact H).
  destruct H as [H1 H2]. split; apply busyb_ok; assumption.
Qed.

(* ---- Clients which use the array itself ---- *)
(* Two objects which only the array in variable 0 has *)
Definition two : list action := [ANew; AAdd 0 0 true; AUnref 0; AStep true; ANew; AAdd 0 1 true; AUnref 1; AStep true].
(* The finalizer of an object removes another object from the array: the function which removes the first one uses freed memory. *)
Theorem C99_remove_refuted : exists n l v x m, along careful (start n) (l ++ ARemove v x false :: m) /\ goes_on m /\
  run (start n) (l ++ ARemove v x false :: m) = Fail UseAfterFree.
Proof.
  exists 1%nat, (two ++ [ARemove 0 0 false]), 0%nat, 1%nat, [AReturn; AStep true; AReturn; AStep true]. split; [|split].
  - apply (alongb_ok carefulb); [exact carefulb_ok|]. vm_compute. reflexivity.
  - intros a H. cbn [In] in H. destruct H as [<-|[<-|[<-|[<-|[]]]]]; [left|right|left|right]; reflexivity.
  - vm_compute. reflexivity.
Qed.
Print Assumptions C99_remove_refuted.
(* It adds an object. *)
Theorem C99_add_refuted : exists n l v x m, along careful (start n) (l ++ AAdd v x true :: m) /\ goes_on m /\
  run (start n) (l ++ AAdd v x true :: m) = Fail UseAfterFree.
Proof.
  exists 1%nat, (two ++ [ANew; ARemove 0 0 false]), 0%nat, 2%nat, [AReturn; AStep true]. split; [|split].
  - apply (alongb_ok carefulb); [exact carefulb_ok|]. vm_compute. reflexivity.
  - intros a H. cbn [In] in H. destruct H as [<-|[<-|[]]]; [left|right]; reflexivity.
  - vm_compute. reflexivity.
Qed.
Print Assumptions C99_add_refuted.
(* It only uses the array and finds the object there which is being finalized. *)
Theorem C99_use_refuted : exists n l, along careful (start n) l /\ run (start n) (l ++ [AUse 0 0]) = Fail UseAfterFree /\
  exists s, run (start n) l = Ok s /\ value (s_trace s) 0 = [1%nat] /\ nth_error (s_objs s) 1 = Some (Some 1%nat).
Proof.
  exists 1%nat, (two ++ [ARemove 0 0 false]). split; [|split].
  - apply (alongb_ok carefulb); [exact carefulb_ok|]. vm_compute. reflexivity.
  - vm_compute. reflexivity.
  - eexists. split; [vm_compute; reflexivity|]. split; reflexivity.
Qed.
Print Assumptions C99_use_refuted.
(* If all occurrences of an object are being removed, the variable has a freed block by then. *)
Theorem C99_stale_refuted : exists n l s, along careful (start n) l /\ run (start n) l = Ok s /\ contents s 0 = None /\
  value (s_trace s) 0 = [1%nat] /\ step s (AUse 0 0) = Fail UseAfterFree.
Proof.
  exists 1%nat, [ANew; AAdd 0 0 true; AAdd 0 0 true; AUnref 0; AStep true; ANew; AAdd 0 1 true; ARemove 0 0 true; AStep true; AStep true].
  eexists. split; [|split; [vm_compute; reflexivity|]].
  - apply (alongb_ok carefulb); [exact carefulb_ok|]. vm_compute. reflexivity.
  - split; [reflexivity|]. split; reflexivity.
Qed.
Print Assumptions C99_stale_refuted.
(* An array is freed inside of gutil_objv_free of the same array: an object of it is used when it is gone. *)
Theorem C99_free_refuted : exists n l v m, along careful (start n) (l ++ AFree v :: m) /\ goes_on m /\
  run (start n) (l ++ AFree v :: m) = Fail UseAfterFree.
Proof.
  exists 1%nat, (two ++ [AFree 0; AStep true]), 0%nat, [AStep true]. split; [|split].
  - apply (alongb_ok carefulb); [exact carefulb_ok|]. vm_compute. reflexivity.
  - intros a H. cbn [In] in H. destruct H as [<-|[]]. right. reflexivity.
  - vm_compute. reflexivity.
Qed.
Print Assumptions C99_free_refuted.

(* ---- Examples ---- *)
(* Object 2 is finalized inside of gutil_objv_remove of array 0 and frees array 1, where object 0 is finalized, which adds object 3 to array 2. *)
Definition ex : list action :=
  [ANew; ANew; ANew; ANew; AAdd 0 2 true; AAdd 0 1 false; AAdd 0 2 true; AAdd 1 0 true; ACopy 0 3; AFree 3; AStep true; AStep true; AStep true; AStep true; AStep true; AStep true; AStep true;
   AUnref 2; AStep true; AUnref 0; AStep true; AUse 0 2;
   ARemove 0 2 true; AStep true; AStep false; AFree 1; AStep true; AAdd 2 3 true; AUse 2 0; AReturn].
Definition ex2 : list action := ex ++ [AStep true; AStep true; AReturn; AStep true; AStep true; AUse 0 0].
Definition st1 : state := Eval vm_compute in match run (start 4) ex with Ok s => s | Fail _ => start 0 end.
Definition st2 : state := Eval vm_compute in match run (start 4) ex2 with Ok s => s | Fail _ => start 0 end.
Example C99_example_careful : along careful (start 4) ex2.
Proof. apply (alongb_ok carefulb); [exact carefulb_ok|]. vm_compute. reflexivity. Qed.
Example C99_example_apart : along apart (start 4) ex2.
Proof. apply (alongb_ok apartb); [exact apartb_ok|]. vm_compute. reflexivity. Qed.
Example C99_example_runs : run (start 4) ex = Ok st1 /\ run (start 4) ex2 = Ok st2.
Proof. split; vm_compute; reflexivity. Qed.
(* Inside: two calls are in progress, array 2 has its object *)
Example C99_example_inside : length (s_stack st1) = 2%nat /\ busyb st1 0 = true /\ busyb st1 1 = true /\ contents st1 2 = Some [3%nat] /\ contents st1 0 = None.
Proof. repeat split. Qed.
Example C99_example_after : s_stack st2 = [] /\ contents st2 0 = Some [1%nat] /\ contents st2 1 = Some [] /\ contents st2 2 = Some [3%nat] /\
  s_objs st2 = [None; Some 2%nat; None; Some 2%nat] /\ map (fun b => match b with Some _ => true | None => false end) (s_heap st2) = [false; false; false; false; false; true; true] /\ finals 2 (s_trace st2) = 1%nat /\ held (s_trace st2) 4 1 = 1%nat.
Proof. repeat split. Qed.
(* One object is being removed *)
Definition st3 : state := Eval vm_compute in match run (start 1) (two ++ [ARemove 0 0 false]) with Ok s => s | Fail _ => start 0 end.
Example C99_example_removing : run (start 1) (two ++ [ARemove 0 0 false]) = Ok st3 /\ contents st3 0 = Some [0%nat; 1%nat] /\ value (s_trace st3) 0 = [1%nat] /\
  s_stack st3 = [FNotify (KMove 0 1 0 0 2 0 false 1)].
Proof. split; [vm_compute; reflexivity|]. repeat split. Qed.
Definition st4 : state := Eval vm_compute in match run (start 1) (two ++ [AFree 0; AStep true]) with Ok s => s | Fail _ => start 0 end.
Example C99_example_freeing : run (start 1) (two ++ [AFree 0; AStep true]) = Ok st4 /\ contents st4 0 = Some [0%nat; 1%nat] /\ s_stack st4 = [FNotify (KFree 0 1 1)] /\
  s_objs st4 = [None; Some 1%nat].
Proof. split; [vm_compute; reflexivity|]. repeat split. Qed.
