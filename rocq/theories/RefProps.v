(* C72: reference counting with any number of threads *)
From Verif Require Import Base RefModel RefSpec RefProofs RefProofs2 RefProofs3.

(* Deciding the discipline, for examples *)
Definition ownsb (s : state) (t o : nat) : bool := match nth_error (s_thr s) t with Some x => existsb (Nat.eqb o) (t_own x) | None => false end.
Definition classb (s : state) (o : nat) (f : class -> bool) : bool := match nth_error (s_objs s) o with Some x => f (o_class x) | None => false end.
Definition is_ints (c : class) : bool := match c with Ints => true | _ => false end.
Definition discb (s : state) (a : action) : bool :=
  match a with
  | ANew _ _ | AStep _ => true
  | ARef t o | AUnref t o | AUse t o | AGive t _ o => ownsb s t o
  | AFrom t o | AUnrefData t o => ownsb s t o && classb s o is_ints
  | AHold t p o => ownsb s t p && (ownsb s t o && classb s p container)
  end.
Definition fewb (s : state) (a : action) : bool :=
  match a with
  | AStep t => match nth_error (s_thr s) t with Some (Thread _ (CInc o :: _)) => refs s o + 1 <? 2^31 | _ => true end
  | _ => true
  end.
Definition spareb (s : state) (a : action) : bool :=
  match a with AUnrefData t o => match nth_error (s_thr s) t with Some x => 2 <=? times o (t_own x) | None => false end | _ => true end.
Fixpoint alongb (P : state -> action -> bool) (s : state) (l : list action) : bool :=
  match l with [] => true | a :: l => P s a && match step s a with Ok s => alongb P s l | Fail _ => true end end.

Lemma alongb_ok (P : state -> action -> Prop) Pb : (forall s a, Pb s a = true -> P s a) -> forall l s, alongb Pb s l = true -> all_along P s l.
Proof.
  intros Q. induction l as [|a l IH]; intros s H; [exact I|]. cbn [alongb all_along] in *. apply andb_true_iff in H as [A B].
  split; [exact (Q s a A)|]. destruct (step s a); [exact (IH _ B)|exact I].
Qed.
Lemma ownsb_ok s t o : ownsb s t o = true -> owns s t o.
Proof.
  unfold ownsb, owns. destruct (nth_error (s_thr s) t) as [x|]; [|discriminate]. intros E. exists x. split; [reflexivity|].
  apply existsb_exists in E as (y & M & E). apply Nat.eqb_eq in E. subst. exact M.
Qed.
Lemma classb_ok s o f : classb s o f = true -> exists x, nth_error (s_objs s) o = Some x /\ f (o_class x) = true.
Proof. unfold classb. destruct (nth_error (s_objs s) o) as [x|]; [|discriminate]. eauto. Qed.
Lemma is_ints_ok s o : (exists x, nth_error (s_objs s) o = Some x /\ is_ints (o_class x) = true) -> exists x, nth_error (s_objs s) o = Some x /\ o_class x = Ints.
Proof. intros (x & E & M). exists x. split; [exact E|]. destruct (o_class x); try discriminate. reflexivity. Qed.
Lemma discb_ok s a : discb s a = true -> disciplined s a.
Proof.
  destruct a; cbn [discb disciplined]; intros H; try exact I; try (apply ownsb_ok; exact H).
  - apply andb_true_iff in H as [A B]. split; [exact (ownsb_ok _ _ _ A)|apply is_ints_ok, classb_ok; exact B].
  - apply andb_true_iff in H as [A B]. split; [exact (ownsb_ok _ _ _ A)|apply is_ints_ok, classb_ok; exact B].
  - apply andb_true_iff in H as [A B]. apply andb_true_iff in B as [B C]. split; [exact (ownsb_ok _ _ _ A)|]. split; [exact (ownsb_ok _ _ _ B)|exact (classb_ok _ _ _ C)].
Qed.
Definition fairb (s : state) (a : action) : bool := discb s a && (fewb s a && spareb s a).
Lemma fairb_ok s a : fairb s a = true -> fair s a.
Proof.
  unfold fairb, fair. intros H. apply andb_true_iff in H as [A B]. apply andb_true_iff in B as [B C]. split; [exact (discb_ok s a A)|]. split.
  - destruct a; try exact I. cbn [few fewb] in *. destruct (nth_error (s_thr s) t) as [[own [|[] k]]|]; try exact I. apply Z.ltb_lt. exact B.
  - destruct a; try exact I. cbn [spare spareb] in *. destruct (nth_error (s_thr s) t) as [x|]; [|discriminate]. exists x. split; [reflexivity|]. apply Z.leb_le. exact C.
Qed.

(* Nothing is used after it has been freed, no assertion fails *)
Theorem C72_safe_partial : forall debug n l, all_along fair (start debug n) l -> exists s, run (start debug n) l = Ok s.
Proof. intros d n l F. destruct (inv_run l _ (inv_start d n) F) as (s & E & _). eauto. Qed.
Print Assumptions C72_safe_partial.

(* Two threads: a ring with integers made from other integers and a history in it; the ring is shared and both threads
   unref it at the same time, step by step in turn *)
Definition two : list action :=
  [ANew 0 Ints; AFrom 0 0; AStep 0; AStep 0; AStep 0; AUnref 0 0; AStep 0; ANew 0 Ring; AHold 0 2 1; ANew 0 History; AHold 0 2 3;
   ARef 0 2; AStep 0; AStep 0; AGive 0 1 2; AUse 1 2; AStep 1; AUnref 1 2; AUnref 0 2].
Definition two_end : list action := [AStep 1; AStep 0; AStep 1; AStep 0; AStep 0; AStep 0; AStep 0; AStep 0; AStep 0; AStep 0; AStep 0; AStep 0; AStep 0; AStep 0; AStep 0; AStep 0; AStep 0].
Example C72_example_safe :
  all_along fair (start true 2) (two ++ two_end) /\
  exists s, run (start true 2) (two ++ two_end) = Ok s /\ idle s /\
    s_trace s = [EFree 0 2; EFree 0 3; ELast 0 3; EFree 0 1; EFree 0 0; ELast 0 0; ELast 0 1; ELast 0 2; ENew 3; ENew 2; ENew 1; ENew 0]%nat.
Proof.
  split; [apply (alongb_ok fair fairb fairb_ok); vm_compute; reflexivity|].
  eexists. split; [vm_compute; reflexivity|]. split; [|reflexivity].
  intros x [<-|[<-|[]]]; reflexivity.
Qed.

(* An object is freed at most once, and by the thread of which the unref was the last; nobody has a reference then *)
Theorem C72_once_partial : forall debug n l s, all_along fair (start debug n) l -> run (start debug n) l = Ok s ->
  forall a b t o, s_trace s = a ++ EFree t o :: b ->
  In (ELast t o) b /\ refs s o = 0 /\ (forall u, ~ In (EFree u o) (a ++ b)) /\
  (forall c e u, a ++ b = c ++ ELast u o :: e -> u = t /\ forall v, ~ In (ELast v o) (c ++ e)).
Proof.
  intros d n l s F E a b t o T. pose proof (inv_reach d n l s F E) as V.
  assert (W : In (ELast t o) b) by (apply (wf_split a t o b); rewrite <- T; exact (I_wf s V)).
  assert (TF : total (isfreed o) (s_trace s) = 1 + total (isfreed o) (a ++ b)).
  { rewrite T, !total_app. cbn [total isfreed]. rewrite Nat.eqb_refl. lia. }
  assert (TL : total (islast o) (s_trace s) = total (islast o) (a ++ b)) by (rewrite T, !total_app; cbn [total islast]; lia).
  pose proof (total_nonneg (isfreed o) (a ++ b) (isfreed_nonneg o)).
  destruct (obj_cases s o V) as [K|[K|[K|K]]]; [lia|lia| |lia].
  split; [exact W|]. split; [lia|]. split; [intros u; apply no_freed; lia|].
  intros c e u S0. rewrite S0, total_app in TL. cbn [total islast] in TL. rewrite Nat.eqb_refl in TL.
  assert (Z0 : total (islast o) (c ++ e) = 0) by (rewrite total_app; lia).
  split; [|intros v; apply no_last; exact Z0].
  assert (M : In (ELast t o) (c ++ ELast u o :: e)) by (rewrite <- S0; apply in_or_app; right; exact W).
  apply in_app_or in M as [M|[M|M]].
  - destruct (no_last o t _ Z0). apply in_or_app. auto.
  - congruence.
  - destruct (no_last o t _ Z0). apply in_or_app. auto.
Qed.
Print Assumptions C72_once_partial.

Example C72_example_once : exists s a b, run (start true 2) (two ++ two_end) = Ok s /\ s_trace s = a ++ EFree 0 0 :: b /\ a <> [] /\ In (ELast 0 0) b.
Proof. eexists. exists [EFree 0 2; EFree 0 3; ELast 0 3; EFree 0 1]%nat. eexists. split; [vm_compute; reflexivity|]. split; [reflexivity|]. split; [discriminate|left; reflexivity]. Qed.

(* The last unref is the one after which there are no references any more, and only that *)
Theorem C72_last_partial : forall debug n l s a s', all_along fair (start debug n) l -> run (start debug n) l = Ok s -> fair s a -> step s a = Ok s' ->
  forall o, (refs s o > 0 /\ refs s' o = 0) <-> exists t, s_trace s' = ELast t o :: s_trace s.
Proof.
  intros d n l s a s' F E Fa X o. pose proof (inv_reach d n l s F E) as V.
  destruct (inv_step s a V Fa) as (s1 & X1 & V'). assert (s1 = s') by congruence. subst s1. clear X1.
  assert (LEN : (length (s_objs s) <= length (s_objs s'))%nat).
  { clear - X. destruct a as [t c|t p|t p|t p|t p|t p|t p q|t u p|t]; cbn [step] in X; destruct (nth_error (s_thr s) t) as [[own [|i k]]|];
      try (injection X as <-; cbn; rewrite ?app_length; lia).
    - destruct (get s p) as [x|f]; [|discriminate]. cbn [bind] in X. injection X as <-. cbn [set_thr set_obj s_objs]. rewrite upd_length. lia.
    - destruct (nth_error (s_thr s) u) as [[m k]|]; [|injection X as <-; lia]. destruct (Nat.eqb t u); injection X as <-; cbn; lia.
    - unfold exec in X. destruct i as [p|p|p|p e|p|p].
      1-4, 6: destruct (get s p) as [x|f]; [|discriminate]; cbn [bind] in X; cbv zeta in X.
      + destruct (o_count x <=? 0); [discriminate|]. injection X as <-. cbn. lia.
      + injection X as <-. cbn. lia.
      + injection X as <-. cbn. rewrite upd_length. lia.
      + destruct (s32 (o_count x - 1) =? 0); injection X as <-; cbn; rewrite upd_length; lia.
      + injection X as <-. cbn. rewrite upd_length. lia.
      + injection X as <-. cbn. rewrite app_length. lia. }
  assert (OLD : refs s o > 0 -> (o < length (s_objs s))%nat).
  { intros G. destruct (Nat.le_gt_cases (length (s_objs s)) o) as [L|L]; [|exact L]. pose proof (I_none s V o L). lia. }
  split.
  - intros [G Z0]. specialize (OLD G). destruct (obj_cases s o V) as [K|[K|[K|K]]]; [|lia|lia|lia].
    destruct (obj_cases s' o V') as [K'|[K'|[K'|K']]]; [lia| | |lia].
    + destruct (step_trace s a s' X) as [T|[e T]]; rewrite T in K'; [lia|]. cbn [total] in K'.
      destruct e as [p|t p|t p]; cbn [islast] in K'; [lia| |lia]. destruct (Nat.eqb_spec p o); [subst; eauto|lia].
    + destruct (step_trace s a s' X) as [T|[e T]]; rewrite T in K'; [lia|]. cbn [total] in K'.
      destruct e as [p|t p|t p]; cbn [islast isfreed] in K'; [lia|lia|]. destruct (Nat.eqb_spec p o); lia.
  - intros [t T].
    destruct (obj_cases s' o V') as [K'|K']; rewrite T in K'; cbn [total islast isfreed] in K'; rewrite Nat.eqb_refl in K'.
    + pose proof (total_nonneg (islast o) (s_trace s) (islast_nonneg o)). lia.
    + pose proof (total_nonneg (islast o) (s_trace s) (islast_nonneg o)).
      destruct (obj_cases s o V) as [K|[K|[K|K]]]; [lia|lia|lia|]. exfalso.
      (* the object has to be there *)
      destruct a as [u c|u p|u p|u p|u p|u p|u p q|u v p|u]; cbn [step] in X; destruct (nth_error (s_thr s) u) as [[own [|i k]]|] eqn:U;
        try (injection X as <-; cbn in T; try (apply (f_equal (@length event)) in T; cbn in T; lia); discriminate).
      * destruct (get s p) as [x|f]; [|discriminate]. cbn [bind] in X. injection X as <-. cbn in T. apply (f_equal (@length event)) in T. cbn in T. lia.
      * destruct (nth_error (s_thr s) v) as [[m k]|]; [|injection X as <-; apply (f_equal (@length event)) in T; cbn in T; lia].
        destruct (Nat.eqb u v); injection X as <-; cbn in T; apply (f_equal (@length event)) in T; cbn in T; lia.
      * unfold exec in X. destruct i as [p|p|p|p e|p|p].
        1-4, 6: destruct (get s p) as [x|f] eqn:G; [|discriminate]; cbn [bind] in X; cbv zeta in X.
        -- destruct (o_count x <=? 0); [discriminate|]. injection X as <-. cbn in T. apply (f_equal (@length event)) in T. cbn in T. lia.
        -- injection X as <-. cbn in T. apply (f_equal (@length event)) in T. cbn in T. lia.
        -- injection X as <-. cbn in T. apply (f_equal (@length event)) in T. cbn in T. lia.
        -- destruct (s32 (o_count x - 1) =? 0); injection X as <-; cbn in T; [|apply (f_equal (@length event)) in T; cbn in T; lia].
           injection T as _ ->. apply get_nth in G as [G _]. pose proof (nth_len _ _ _ G). lia.
        -- injection X as <-. cbn in T. discriminate.
        -- injection X as <-. cbn in T. discriminate.
Qed.
Print Assumptions C72_last_partial.

Example C72_example_last : exists s s', run (start true 2) (two ++ firstn 3 two_end) = Ok s /\ step s (AStep 0) = Ok s' /\ refs s 2 = 1 /\ refs s' 2 = 0 /\
  s_trace s' = ELast 0 2 :: s_trace s.
Proof. eexists. eexists. split; [vm_compute; reflexivity|]. split; [vm_compute; reflexivity|]. vm_compute. auto. Qed.

(* While there is a reference, the object is not finalised, and its count is the number of references *)
Theorem C72_held_partial : forall debug n l s o, all_along fair (start debug n) l -> run (start debug n) l = Ok s -> refs s o > 0 ->
  (forall t, ~ In (ELast t o) (s_trace s) /\ ~ In (EFree t o) (s_trace s)) /\
  exists x, nth_error (s_objs s) o = Some x /\ o_live x = true /\ o_count x = refs s o.
Proof.
  intros d n l s o F E G. pose proof (inv_reach d n l s F E) as V. destruct (obj_cases s o V) as [K|K]; [|lia]. split.
  - intros t. split; [apply no_last; lia|apply no_freed; lia].
  - destruct (alive_get s o V) as (x & X & _ & L & C & _); [lia|]. exists x. auto.
Qed.
Print Assumptions C72_held_partial.

Example C72_example_held : exists s, all_along fair (start false 2) two /\ run (start false 2) two = Ok s /\ refs s 0 = 1 /\ refs s 2 = 2.
Proof. eexists. split; [apply (alongb_ok fair fairb fairb_ok); vm_compute; reflexivity|]. split; [vm_compute; reflexivity|]. vm_compute. auto. Qed.

(* When no call is in progress, everything that has no references has been freed *)
Theorem C72_done_partial : forall debug n l s o, all_along fair (start debug n) l -> run (start debug n) l = Ok s -> idle s ->
  (o < length (s_objs s))%nat -> refs s o = 0 -> exists t, In (EFree t o) (s_trace s).
Proof.
  intros d n l s o F E I0 L Z0. pose proof (inv_reach d n l s F E) as V. destruct (obj_cases s o V) as [K|[K|[K|K]]]; [lia| | |lia].
  - exfalso. assert (F0 : frees s o = 0); [|lia]. unfold frees. unfold idle in I0. revert I0. generalize (s_thr s). clear. intros m M.
    induction m as [|x m IH]; [reflexivity|]. cbn [total]. rewrite IH by (intros y N; apply M; right; exact N).
    unfold fw. rewrite (M x (or_introl eq_refl)). reflexivity.
  - apply isfreed_in. lia.
Qed.
Print Assumptions C72_done_partial.

Example C72_example_done : exists s, run (start true 2) (two ++ two_end) = Ok s /\ length (s_objs s) = 4%nat /\ refs s 3 = 0 /\ In (EFree 0 3) (s_trace s).
Proof. eexists. split; [vm_compute; reflexivity|]. split; [reflexivity|]. split; [reflexivity|]. cbn. auto. Qed.

(* Calls finish whatever the schedule is: the number of steps is limited *)
Theorem C72_finish_partial : forall debug n l s, all_along fair (start debug n) l -> run (start debug n) l = Ok s ->
  exists limit : nat, forall ts, all_along (fun s a => fair s a /\ exists t, a = AStep t /\ busy s t) s (map AStep ts) -> (length ts <= limit)%nat.
Proof.
  intros d n l s F E. pose proof (inv_reach d n l s F E) as V. exists (Z.to_nat (work s)). intros ts H. pose proof (work_bound ts s V H). lia.
Qed.
Print Assumptions C72_finish_partial.

Example C72_example_finish : exists s, run (start true 2) two = Ok s /\ busy s 0 /\ busy s 1 /\
  exists s', run s (map AStep [1; 0; 1; 0; 0; 0; 0; 0; 0; 0; 0; 0; 0; 0]%nat) = Ok s' /\ ~ idle s'.
Proof.
  eexists. split; [vm_compute; reflexivity|]. split; [vm_compute; eauto|]. split; [vm_compute; eauto|]. eexists. split; [vm_compute; reflexivity|].
  intros H. specialize (H _ (or_introl eq_refl)). discriminate.
Qed.

(* gutil_ints_unref_to_data reads the integers after giving up the reference: with two threads, each having one reference, the other
   one may free them in the meantime *)
Theorem C72_unref_to_data_refuted : exists l, all_along disciplined (start false 2) l /\ all_along few (start false 2) l /\
  run (start false 2) l = Fail UseAfterFree.
Proof.
  exists [ANew 0 Ints; ARef 0 0; AStep 0; AGive 0 1 0; AUnrefData 0 0; AStep 0; AStep 0; AUnref 1 0; AStep 1; AStep 1; AStep 1; AStep 0].
  split; [apply (alongb_ok disciplined discb discb_ok); vm_compute; reflexivity|]. split; [vm_compute; repeat split|]. vm_compute. reflexivity.
Qed.
Print Assumptions C72_unref_to_data_refuted.

Lemma nat_of z : 0 <= z -> exists n, Z.of_nat n = z.
Proof. intros L. exists (Z.to_nat z). apply Z2Nat.id. exact L. Qed.

(* With more than 2^32 references, in a release build: the object is freed while there are references *)
Theorem C72_many_refuted : exists l s, all_along disciplined (start false 1) l /\ run (start false 1) l = Ok s /\
  refs s 0 = 2^32 /\ In (EFree 0 0) (s_trace s).
Proof.
  destruct (nat_of (2^32)) as [n N]; [lia|].
  destruct (lots_many false n 0 (or_introl eq_refl)) as [R A]. rewrite Nat.add_0_l in R.
  pose (s2 := State false [Obj History 0 [] false] [Thread (repeat 0%nat n) []] [EFree 0 0; ELast 0 0; ENew 0]%nat).
  assert (R2 : run (lots false n) [AUnref 0 0; AStep 0; AStep 0] = Ok s2).
  { unfold lots. rewrite N. change (s32 (1 + 2^32)) with 1. reflexivity. }
  assert (A2 : all_along disciplined (lots false n) [AUnref 0 0; AStep 0; AStep 0]).
  { split; [eexists; split; [reflexivity|left; reflexivity]|]. unfold lots. rewrite N. change (s32 (1 + 2^32)) with 1. cbn. tauto. }
  exists ([ANew 0 History] ++ many n ++ [AUnref 0 0; AStep 0; AStep 0]), s2.
  assert (R0 : run (start false 1) [ANew 0 History] = Ok (lots false 0)) by reflexivity.
  split; [|split; [|split]].
  - apply (along_app _ _ _ _ _ R0); [split; exact I|]. exact (along_app _ _ _ _ _ R A A2).
  - rewrite run_app, R0. cbn [bind]. rewrite run_app, R. cbn [bind]. exact R2.
  - unfold refs, s2. cbn [s_thr s_objs total t_own t_code o_held times]. rewrite <- N. clear.
    induction n as [|n IH]; [reflexivity|]. cbn [repeat times Nat.eqb]. lia.
  - left. reflexivity.
Qed.
Print Assumptions C72_many_refuted.

(* In a debug build an assertion fails with 2^31 of them *)
Theorem C72_many_debug_refuted : exists l, all_along disciplined (start true 1) l /\ run (start true 1) l = Fail AssertFail.
Proof.
  destruct (nat_of (2^31 - 1)) as [n N]; [lia|].
  destruct (lots_many true n 0) as [R A]; [right; lia|]. rewrite Nat.add_0_l in R.
  exists ([ANew 0 History] ++ many n ++ [ARef 0 0; AStep 0]).
  assert (R0 : run (start true 1) [ANew 0 History] = Ok (lots true 0)) by reflexivity.
  assert (A2 : all_along disciplined (lots true n) [ARef 0 0; AStep 0]).
  { split; [eexists; split; [reflexivity|left; reflexivity]|]. unfold lots. rewrite N. change (s32 (1 + (2^31 - 1))) with (- 2^31). cbn. tauto. }
  split.
  - apply (along_app _ _ _ _ _ R0); [split; exact I|]. exact (along_app _ _ _ _ _ R A A2).
  - rewrite run_app, R0. cbn [bind]. rewrite run_app, R. cbn [bind]. unfold lots. rewrite N. change (s32 (1 + (2^31 - 1))) with (- 2^31). reflexivity.
Qed.
Print Assumptions C72_many_debug_refuted.
