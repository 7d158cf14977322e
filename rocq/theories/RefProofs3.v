(* Consequences of the invariant, termination, and what happens with too many references *)
From Verif Require Import Base RefModel RefSpec RefProofs RefProofs2.

(* The trace *)
Lemma total_zero {A} (f : A -> Z) l x : (forall x, 0 <= f x) -> total f l = 0 -> In x l -> f x = 0.
Proof. intros F T M. pose proof (total_in f l x F M). specialize (F x). lia. Qed.

Lemma islast_in o l : 1 <= total (islast o) l -> exists t, In (ELast t o) l.
Proof.
  induction l as [|e l IH]; cbn [total]; [lia|]. intros G. destruct e as [p|t p|t p]; cbn [islast] in G.
  - destruct IH as [u M]; [lia|]. exists u. right. exact M.
  - destruct (Nat.eqb_spec p o) as [->|N]; [exists t; left; reflexivity|]. destruct IH as [u M]; [lia|]. exists u. right. exact M.
  - destruct IH as [u M]; [lia|]. exists u. right. exact M.
Qed.
Lemma isfreed_in o l : 1 <= total (isfreed o) l -> exists t, In (EFree t o) l.
Proof.
  induction l as [|e l IH]; cbn [total]; [lia|]. intros G. destruct e as [p|t p|t p]; cbn [isfreed] in G.
  - destruct IH as [u M]; [lia|]. exists u. right. exact M.
  - destruct IH as [u M]; [lia|]. exists u. right. exact M.
  - destruct (Nat.eqb_spec p o) as [->|N]; [exists t; left; reflexivity|]. destruct IH as [u M]; [lia|]. exists u. right. exact M.
Qed.
Lemma no_last o t l : total (islast o) l = 0 -> ~ In (ELast t o) l.
Proof. intros T M. pose proof (total_zero _ _ _ (islast_nonneg o) T M) as Q. cbn [islast] in Q. rewrite Nat.eqb_refl in Q. lia. Qed.
Lemma no_freed o t l : total (isfreed o) l = 0 -> ~ In (EFree t o) l.
Proof. intros T M. pose proof (total_zero _ _ _ (isfreed_nonneg o) T M) as Q. cbn [isfreed] in Q. rewrite Nat.eqb_refl in Q. lia. Qed.
Lemma wf_split a t o b : wf_tr (a ++ EFree t o :: b) -> In (ELast t o) b.
Proof. induction a; cbn [app wf_tr]; tauto. Qed.

(* The state of an object, for all o *)
Lemma obj_cases s o : Inv s ->
  (1 <= refs s o /\ total (islast o) (s_trace s) = 0 /\ total (isfreed o) (s_trace s) = 0) \/
  (refs s o = 0 /\ total (islast o) (s_trace s) = 1 /\ total (isfreed o) (s_trace s) = 0 /\ frees s o = 1) \/
  (refs s o = 0 /\ total (islast o) (s_trace s) = 1 /\ total (isfreed o) (s_trace s) = 1) \/
  (refs s o = 0 /\ total (islast o) (s_trace s) = 0 /\ total (isfreed o) (s_trace s) = 0 /\ (length (s_objs s) <= o)%nat).
Proof.
  intros V. destruct (nth_error (s_objs s) o) as [x|] eqn:E.
  - destruct (I_obj s V o x E) as [K|[K|K]]; lia.
  - apply nth_error_None in E. pose proof (I_none s V o E). lia.
Qed.

Lemma run_app l m : forall s, run s (l ++ m) = do s' <- run s l; run s' m.
Proof. induction l as [|a l IH]; intros s; [reflexivity|]. cbn [app run]. destruct (step s a); cbn [bind]; auto. Qed.
Lemma along_app P l m : forall s s', run s l = Ok s' -> all_along P s l -> all_along P s' m -> all_along P s (l ++ m).
Proof.
  induction l as [|a l IH]; intros s s' E H F.
  - injection E as <-. exact F.
  - cbn [run] in E. cbn [app all_along] in *. destruct H as [H1 H2]. split; [exact H1|]. destruct (step s a); [|exact I]. exact (IH _ _ E H2 F).
Qed.

(* A step adds at most one event *)
Lemma step_trace s a s' : step s a = Ok s' -> s_trace s' = s_trace s \/ exists e, s_trace s' = e :: s_trace s.
Proof.
  destruct a as [t c|t o|t o|t o|t o|t o|t p o|t u o|t]; cbn [step]; destruct (nth_error (s_thr s) t) as [[own [|i k]]|];
    try (intros E; injection E as <-; cbn; eauto).
  - intros E. destruct (get s p) as [x|f]; [|discriminate]. cbn [bind] in E. injection E as <-. auto.
  - intros E. destruct (nth_error (s_thr s) u) as [[l k]|]; [|injection E as <-; auto]. destruct (Nat.eqb t u); injection E as <-; auto.
  - intros E. unfold exec in E. destruct i as [o|o|o|o d|o|o].
    1-4, 6: destruct (get s o) as [x|f]; [|discriminate]; cbn [bind] in E; cbv zeta in E.
    + destruct (o_count x <=? 0); [discriminate|]. injection E as <-. auto.
    + injection E as <-. auto.
    + injection E as <-. auto.
    + destruct (s32 (o_count x - 1) =? 0); injection E as <-; [right; eexists; reflexivity|auto].
    + injection E as <-. right. eexists. reflexivity.
    + injection E as <-. right. eexists. reflexivity.
Qed.

(* Termination *)
Definition cw (i : code) : Z := match i with CDec _ _ => 2 | CMake _ => 8 | _ => 1 end.
Definition pot (x : obj) : Z := if o_count x =? 0 then 0 else 3 + 4 * Z.of_nat (length (o_held x)).
Definition work (s : state) : Z := total (fun x => total cw (t_code x)) (s_thr s) + total pot (s_objs s).

Lemma cw_nonneg i : 0 <= cw i.
Proof. destruct i; cbn [cw]; lia. Qed.
Lemma pot_nonneg x : 0 <= pot x.
Proof. unfold pot. destruct (o_count x =? 0); lia. Qed.
Lemma work_nonneg s : 0 <= work s.
Proof.
  unfold work. pose proof (total_nonneg pot (s_objs s) pot_nonneg).
  pose proof (total_nonneg (fun x => total cw (t_code x)) (s_thr s) (fun x => total_nonneg cw (t_code x) cw_nonneg)). lia.
Qed.

Lemma unref_cw s o : total cw (unref_code s o) <= 3.
Proof. unfold unref_code, check. destruct (s_debug s && checks (class_of s o)); cbn [app total cw]; lia. Qed.
Lemma last_cw s c o held : total cw (last_code s c o held) <= 3 + 4 * Z.of_nat (length held).
Proof.
  assert (A : total cw (flat_map (unref_code s) held) <= 4 * Z.of_nat (length held)).
  { induction held as [|h l IH]; [cbn; lia|]. cbn [flat_map]. rewrite total_app. pose proof (unref_cw s h).
    change (length (h :: l)) with (S (length l)). lia. }
  assert (B : total cw (flat_map (fun h => CRead o :: unref_code s h) held) <= 4 * Z.of_nat (length held)).
  { clear A. induction held as [|h l IH]; [cbn; lia|]. cbn [flat_map app total]. rewrite total_app. pose proof (unref_cw s h).
    change (length (h :: l)) with (S (length l)). cbn [cw]. lia. }
  destruct c; unfold last_code; cbn [total]; rewrite total_app; cbn [total cw]; lia.
Qed.

Lemma work_obj s t o x y tx ty : nth_error (s_thr s) t = Some tx -> nth_error (s_objs s) o = Some x ->
  work (set_thr (set_obj s o y) t ty) = work s - total cw (t_code tx) + total cw (t_code ty) - pot x + pot y.
Proof.
  intros E F. unfold work, set_thr, set_obj. cbn [s_thr s_objs].
  rewrite (total_upd _ _ _ _ _ E), (total_upd _ _ _ _ _ F). lia.
Qed.
Lemma work_thr s t tx ty : nth_error (s_thr s) t = Some tx -> work (set_thr s t ty) = work s - total cw (t_code tx) + total cw (t_code ty).
Proof. intros E. unfold work, set_thr. cbn [s_thr s_objs]. rewrite (total_upd _ _ _ _ _ E). lia. Qed.

Lemma get_nth s o x : get s o = Ok x -> nth_error (s_objs s) o = Some x /\ o_live x = true.
Proof. unfold get. destruct (nth_error (s_objs s) o) as [y|]; [|discriminate]. destruct (o_live y) eqn:L; [|discriminate]. intros E. injection E as ->. auto. Qed.

Lemma work_exec s t own i k s' : Inv s -> nth_error (s_thr s) t = Some (Thread own (i :: k)) -> few s (AStep t) ->
  exec s t own i k = Ok s' -> work s' < work s.
Proof.
  intros V E F X. unfold exec in X. destruct i as [o|o|o|o d|o|o].
  1-4, 6: destruct (get s o) as [x|f] eqn:G; [|discriminate]; cbn [bind] in X; cbv zeta in X; apply get_nth in G as [G L].
  - destruct (o_count x <=? 0); [discriminate|]. injection X as <-. rewrite (work_thr s t _ _ E). cbn [t_code total cw]. lia.
  - injection X as <-. rewrite (work_thr s t _ _ E). cbn [t_code total cw]. lia.
  - injection X as <-. rewrite (work_obj s t o x _ _ _ E G). cbn [t_code total cw].
    pose proof (I_just s V t _ E) as J. cbn [t_own t_code just] in J. destruct J as [M J]. pose proof (own_refs s t _ o E M) as R.
    cbn [few] in F. rewrite E in F.
    destruct (I_obj s V o x G) as [K|[K|K]]; [|lia|lia]. unfold pot. cbn [o_count o_held]. rewrite s32_id by (unfold in_s32; lia).
    destruct (Z.eqb_spec (o_count x + 1) 0); [lia|]. destruct (Z.eqb_spec (o_count x) 0); [lia|]. lia.
  - pose proof (dec_refs s t _ o d E (or_introl eq_refl)) as R. destruct (I_obj s V o x G) as [K|[K|K]]; [|lia|lia].
    rewrite s32_id in X by (unfold in_s32; lia). destruct (Z.eqb_spec (o_count x - 1) 0) as [E0|N0]; injection X as <-.
    + unfold emit, work at 1. cbn [s_thr s_objs].
      change (work (set_thr (set_obj s o (Obj (o_class x) (o_count x - 1) [] true)) t (Thread own (last_code s (o_class x) o (o_held x) ++ k))) < work s).
      rewrite (work_obj s t o x _ _ _ E G). unfold pot. cbn [t_code total cw o_count o_held]. rewrite E0. rewrite total_app.
      pose proof (last_cw s (o_class x) o (o_held x)). destruct (Z.eqb_spec (o_count x) 0); [lia|]. cbn [Z.eqb]. lia.
    + rewrite (work_obj s t o x _ _ _ E G). unfold pot. cbn [t_code total cw o_count o_held]. rewrite total_app.
      destruct (Z.eqb_spec (o_count x) 0); [lia|]. destruct (Z.eqb_spec (o_count x - 1) 0); [lia|]. destruct d; cbn [total cw]; lia.
  - injection X as <-. change (work (set_thr (set_obj s o (Obj (o_class x) (o_count x) [] false)) t (Thread own k)) < work s).
    rewrite (work_obj s t o x _ _ _ E G). cbn [t_code total cw].
    pose proof (free_frees s t _ o E (or_introl eq_refl)) as R. destruct (I_obj s V o x G) as [K|[K|K]]; [lia| |lia].
    unfold pot. cbn [o_count o_held]. destruct (Z.eqb_spec (o_count x) 0); lia.
  - injection X as <-. rewrite (work_thr (new_obj s (Obj Ints 1 [o] true)) t (Thread own (CMake o :: k)) _ E). cbn [t_code total cw].
    unfold work at 1, new_obj. cbn [s_thr s_objs]. rewrite total_app. cbn [total]. unfold pot at 2. cbn [o_count o_held length Z.eqb].
    unfold work. lia.
Qed.

Lemma work_bound ts : forall s, Inv s -> all_along (fun s a => fair s a /\ exists t, a = AStep t /\ busy s t) s (map AStep ts) ->
  Z.of_nat (length ts) <= work s.
Proof.
  induction ts as [|t ts IH]; intros s V H; [pose proof (work_nonneg s); cbn [length]; lia|].
  cbn [map all_along] in H. destruct H as [(F & u & EU & B) H]. injection EU as <-. destruct B as (own & i & k & E).
  destruct F as (D & F & S0). cbn [step] in H. rewrite E in H.
  destruct (inv_exec s t own i k V E F) as (s1 & X & V1). rewrite X in H. pose proof (work_exec s t own i k s1 V E F X).
  specialize (IH s1 V1 H). change (length (t :: ts)) with (S (length ts)). lia.
Qed.

(* Many references to one history *)
Definition lots (d : bool) (n : nat) : state := State d [Obj History (s32 (1 + Z.of_nat n)) [] true] [Thread (repeat 0%nat (S n)) []] [ENew 0%nat].
Definition once : list action := [ARef 0 0; AStep 0; AStep 0].

Lemma s32_succ z : s32 (s32 z + 1) = s32 (z + 1).
Proof.
  unfold s32. f_equal. replace (((z + 2 ^ 31) mod 2 ^ 32 - 2 ^ 31 + 1 + 2 ^ 31)) with ((z + 2 ^ 31) mod 2 ^ 32 + 1) by lia.
  rewrite Zplus_mod_idemp_l. f_equal. lia.
Qed.

Lemma lots_once d n : (d = false \/ s32 (1 + Z.of_nat n) > 0) -> run (lots d n) once = Ok (lots d (S n)) /\ all_along disciplined (lots d n) once.
Proof.
  intros C.
  assert (S1 : s32 (s32 (1 + Z.of_nat n) + 1) = s32 (1 + Z.of_nat (S n))) by (rewrite s32_succ; f_equal; lia).
  assert (O : disciplined (lots d n) (ARef 0 0)) by (eexists; split; [reflexivity|left; reflexivity]).
  unfold lots in *. rewrite <- S1. revert C O. generalize (s32 (1 + Z.of_nat n)). intros z C O. change (repeat 0%nat (S n)) with (0%nat :: repeat 0%nat n) in *.
  change (repeat 0%nat (S (S n))) with (0%nat :: 0%nat :: repeat 0%nat n). generalize dependent (repeat 0%nat n). intros l O.
  destruct d.
  - destruct C as [C|C]; [discriminate|]. assert (L : (z <=? 0) = false) by (apply Z.leb_gt; lia).
    split; [cbn; rewrite L; reflexivity|]. split; [exact O|]. cbn. rewrite L. repeat split.
  - split; [reflexivity|]. split; [exact O|]. cbn. repeat split.
Qed.

Definition many (n : nat) : list action := concat (repeat once n).
Lemma lots_many d n : forall m, (d = false \/ Z.of_nat (m + n) < 2^31) ->
  run (lots d m) (many n) = Ok (lots d (m + n)) /\ all_along disciplined (lots d m) (many n).
Proof.
  induction n as [|n IH]; intros m C.
  - rewrite Nat.add_0_r. split; [reflexivity|exact I].
  - unfold many. cbn [repeat concat]. destruct (lots_once d m) as [R A].
    { destruct C as [C|C]; [auto|]. right. rewrite s32_id by (unfold in_s32; lia). lia. }
    destruct (IH (S m)) as [R' A']; [destruct C; [auto|right; lia]|].
    split.
    + rewrite run_app, R. cbn [bind]. replace (m + S n)%nat with (S m + n)%nat by lia. exact R'.
    + exact (along_app disciplined once (many n) _ _ R A A').
Qed.
