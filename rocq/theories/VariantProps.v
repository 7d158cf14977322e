(* C102: variants made of data, floating references, objects and the pool *)
From Verif Require Import Base VariantModel VariantSpec VariantProofs.

(* Every program which gives away only what it has, and claims no variant whose first reference was given away or dropped
   unclaimed, runs without a fault, with the results it expects; what has been freed at the end, once each, is what nobody owns *)
Theorem C102_programs ops : all_allowed start ops ->
  exists s, run init ops = Ok (results start ops, s) /\ NoDup (s_freed s) /\ forall v, In v (s_freed s) <-> gone (afters start ops) v.
Proof.
  intros A. destruct (run_rel ops init start rel_init A) as (s & E & R). exists s. split; auto. split; [apply (r_nodup _ _ R)|apply (r_freed _ _ R)].
Qed.
Print Assumptions C102_programs.

(* The bytes of the copy are those of the data at the time of the copy, whatever happens to them (or to anything else) later *)
Theorem C102_bytes before b n l later : n <= len l -> 0 < n -> let w := afters start before in let v := length (w_accts w) in
  nth_error (w_blocks w) b = Some (Some l) ->
  all_allowed start (before ++ Copy (Some (Data (Some b) n)) :: later ++ [Read v]) ->
  exists xs ys s, run init (before ++ Copy (Some (Data (Some b) n)) :: later ++ [Read v]) =
    Ok (xs ++ OPtr (Some v) :: ys ++ [OBytes (firstn (Z.to_nat n) l)], s) /\ length xs = length before.
Proof.
  intros L P w v Hb A. destruct (run_rel _ init start rel_init A) as (s & E & R).
  set (d := Data (Some b) n) in *. exists (results start before), (results (after w (Copy (Some d))) later), s. split.
  - rewrite E. do 2 f_equal. rewrite results_app. fold w. cbn [results result]. fold v. f_equal. f_equal. rewrite results_app. f_equal. cbn [results result].
    destruct (afters_bytes later (after w (Copy (Some d))) v (Acct KVariant 0 0 Floating (firstn (Z.to_nat n) l))) as (c & C1 & C2 & _).
    + unfold account_of. cbn [after created w_accts]. rewrite nth_error_app2 by (unfold v; lia). unfold v. rewrite Nat.sub_diag. cbn [nth_error].
      unfold d. cbn [d_size]. replace (n =? 0) with false by lia. unfold bytes_of. cbn [d_bytes d_size]. rewrite Hb. reflexivity.
    + rewrite C1, C2. reflexivity.
  - clear. generalize start. induction before as [|o p IH]; intros w; cbn; auto.
Qed.
Print Assumptions C102_bytes.

(* NULL is tolerated everywhere, in every state *)
Theorem C102_null s k :
  step s (Copy None) = Ok (OPtr None, s) /\ step s (ObjRef None) = Ok (OPtr None, s) /\ step s (ObjUnref None) = Ok (ONone, s) /\
  step s (Add k None) = Ok (OPtr None, s) /\ step s (AddRef k None) = Ok (OPtr None, s).
Proof. repeat split. Qed.
Print Assumptions C102_null.

(* The rule about claiming is needed: whoever claims (g_variant_ref_sink) a variant which was given to the pool floating gets no
   reference of its own, and when everybody has dropped what they believe to have, freed memory is used. For every such program *)
Theorem C102_claim_given ops v a : all_allowed start ops -> account_of (afters start ops) v = Some a -> a_kind a = KVariant ->
  0 < owners a -> a_first a = Floated ->
  run init (ops ++ VarSink v :: repeat (VarUnref v) (Z.to_nat (a_client a) + 1) ++ [Drain]) = Fail UseAfterFree.
Proof.
  intros A H K O F. destruct (run_rel ops init start rel_init A) as (s & E & R). rewrite run_app, E. cbn [bind].
  rewrite (claim_steals s _ v a R H K O F). reflexivity.
Qed.
Print Assumptions C102_claim_given.

(* hence it is not true that a pool may be given a new variant by gutil_idle_pool_add_variant and the variant then be passed to a
   function which takes floating variants, as any other variant *)
Theorem C102_claim_refuted : exists ops v, all_allowed start ops /\ exists_ (afters start ops) KVariant v /\
  (* the same calls with a reference claimed beforehand are fine *)
  (exists s, run init ([NewBlock [1; 2]; Copy (Some (Data (Some 0%nat) 2)); VarSink v; Add KVariant (Some v)] ++ [VarSink v; VarUnref v; Drain]) =
     Ok ([ONone; OPtr (Some v); ONone; OPtr (Some v); ONone; ONone; ONone], s) /\ s_freed s = [v]) /\
  run init (ops ++ [VarSink v; VarUnref v; Drain]) = Fail UseAfterFree.
Proof.
  exists [NewBlock [1; 2]; Copy (Some (Data (Some 0%nat) 2)); Add KVariant (Some 0%nat)], 0%nat. split; [|split; [|split]].
  - cbn [all_allowed allowed]. split; [exact Logic.I|]. split.
    + intros x Hx. inversion Hx; subst. right. cbn. split; [lia|]. exists 0%nat, [1; 2]. repeat split. cbn. lia.
    + split; [|exact Logic.I]. intros v Hv. inversion Hv; subst. eexists. split; [vm_compute; reflexivity|]. split; [reflexivity|]. right. reflexivity.
  - eexists. split; [vm_compute; reflexivity|]. split; [reflexivity|]. vm_compute. reflexivity.
  - eexists. split; [vm_compute; reflexivity|reflexivity].
  - vm_compute. reflexivity.
Qed.
Print Assumptions C102_claim_refuted.

(* A new variant given by gutil_idle_pool_add_variant_ref, on the other hand, may be claimed; but if nobody does, it stays: its
   first reference belongs to nobody, and draining the pool does not free it, no matter what else has happened *)
Theorem C102_unclaimed ops v a : all_allowed start ops -> account_of (afters start ops) v = Some a -> a_first a = Floating ->
  exists xs s, run init (ops ++ [Drain]) = Ok (xs, s) /\ ~ In v (s_freed s) /\ exists t, nth_error (s_things s) v = Some (Some t).
Proof.
  intros A H F. assert (all_allowed start (ops ++ [Drain])) as A2 by (apply all_allowed_app; split; [exact A|cbn; auto]).
  destruct (run_rel ops init start rel_init A) as (s1 & E1 & R1). destruct (r_nonneg _ _ R1 v a H) as (C & _).
  destruct (run_rel _ init start rel_init A2) as (s & E & R). exists (results start (ops ++ [Drain])), s. split; auto.
  assert (account_of (afters start (ops ++ [Drain])) v = Some (drained a)) as H2.
  { rewrite afters_app. unfold account_of in *. cbn [afters after w_accts]. apply map_nth_error. exact H. }
  assert (0 < owners (drained a)) as O by (unfold owners; cbn; rewrite F; cbn; lia).
  split.
  - rewrite (r_freed _ _ R). intros (b & B1 & B2). rewrite H2 in B1. inversion B1; subst. lia.
  - rewrite (r_things _ _ R). unfold account_of in H2. rewrite (map_nth_error thing_of v _ H2). rewrite (thing_live _ O). eauto.
Qed.
Print Assumptions C102_unclaimed.

(* A client with two copies, an object and a pool: the second copy is lent to the pool, then claimed; the first is given floating *)
Definition busy : list op :=
  [NewBlock [7; 8; 9]; Copy (Some (Data (Some 0%nat) 2)); Copy (Some (Data (Some 0%nat) 3)); SetBlock 0%nat [0; 0; 0]; FreeBlock 0%nat;
   Add KVariant (Some 0%nat); AddRef KVariant (Some 1%nat); VarSink 1%nat; Read 1%nat; VarUnref 1%nat; NewObject; ObjRef (Some 2%nat);
   Add KObject (Some 2%nat); Read 0%nat; Drain; ObjUnref (Some 2%nat); Copy (Some (Data None 0)); Read 3%nat; VarUnref 3%nat].

Example C102_example_busy : exists s, run init busy =
  Ok ([ONone; OPtr (Some 0%nat); OPtr (Some 1%nat); ONone; ONone; OPtr (Some 0%nat); OPtr (Some 1%nat); ONone; OBytes [7; 8; 9]; ONone;
       OPtr (Some 2%nat); OPtr (Some 2%nat); OPtr (Some 2%nat); OBytes [7; 8]; ONone; ONone; OPtr (Some 3%nat); OBytes []; ONone], s) /\
  s_freed s = [3; 2; 1; 0]%nat.
Proof. eexists. split; [vm_compute; reflexivity|reflexivity]. Qed.

Ltac acct := eexists; split; [vm_compute; reflexivity|split; [reflexivity|vm_compute; auto]].

Example C102_example_allowed : all_allowed start busy.
Proof.
  unfold busy. cbn [all_allowed allowed].
  repeat split; try (intros x Hx; inversion Hx; subst; clear Hx);
    try (right; cbn; split; [lia|]; exists 0%nat, [7; 8; 9]; repeat split; cbn; lia); try (left; reflexivity);
    try (exists [7; 8; 9]; reflexivity); try (eexists; reflexivity); try acct; discriminate.
Qed.

(* lent and never claimed: leaked *)
Definition lost : list op := [NewBlock [5]; Copy (Some (Data (Some 0%nat) 1)); AddRef KVariant (Some 0%nat)].
Example C102_example_lost : exists s, run init (lost ++ [Drain]) = Ok ([ONone; OPtr (Some 0%nat); OPtr (Some 0%nat); ONone], s) /\ s_freed s = [] /\
  account_of (afters start lost) 0 = Some (Acct KVariant 0 1 Floating [5]).
Proof. eexists. split; [vm_compute; reflexivity|]. split; reflexivity. Qed.

(* given floating, referenced by the client, then claimed *)
Definition mixed : list op := [Copy (Some (Data None 0)); Add KVariant (Some 0%nat); VarRef 0%nat].
Example C102_example_mixed : account_of (afters start mixed) 0 = Some (Acct KVariant 1 1 Floated []) /\
  run init (mixed ++ VarSink 0%nat :: repeat (VarUnref 0%nat) (Z.to_nat 1 + 1) ++ [Drain]) = Fail UseAfterFree.
Proof. split; vm_compute; reflexivity. Qed.
