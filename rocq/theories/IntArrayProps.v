(* Properties C36-C39 and C79: int arrays *)
From Verif Require Import Base IntArrayModel IntArraySpec IntArrayProofs.
From Coq Require Import ZifyBool Permutation Sorted.
Ltac Zify.zify_post_hook ::= Z.div_mod_to_equations.

(* a growth policy for examples: GLib's is the next power of two *)
Definition pow2 (n : Z) : Z := Z.max 4 (2 ^ Z.log2_up n).
Definition arr (l : list Z) : garray := mkArr (map Some l ++ [None; None]) (len l) 1 0.

Lemma shows_arr l : shows (arr l) (map Some l).
Proof. split; [cbn; rewrite len_map; auto|]. exists [None; None]. reflexivity. Qed.

(* ------------------------------------------------------------------ C36 *)
(* An insertion behind the end is not ignored: it makes the array longer, with unspecified values *)
Theorem C36_insert_refuted : exists grow a l p v a',
  (forall k, k <= grow k) /\ shows a l /\ len l < p /\
  insert grow (Some a) p v = Ok (Some a') /\ ~ shows a' l /\ find (Some a') v = Fail UninitRead.
Proof.
  exists (fun k => k), (arr [1]), [Some 1], 3, 7. eexists. split; [lia|]. split; [apply (shows_arr [1])|]. split; [reflexivity|].
  split; [vm_compute; reflexivity|]. split; [intros (C & _); discriminate|reflexivity].
Qed.
Print Assumptions C36_insert_refuted.

(* n zeros and a one *)
Lemma find_last n z : z = repeat (Some 0) (Z.to_nat n) -> 0 <= n ->
  let a := mkArr (z ++ [Some 1]) (n + 1) 1 0 in
  shows a (z ++ [Some 1]) /\ find (Some a) 1 = Ok (s32 n).
Proof.
  intros Ez Hn a. assert (len z = n) as L by (rewrite Ez; unfold len; rewrite repeat_length; lia).
  split; [split; [unfold a; cbn [count]; rewrite len_app, L; reflexivity|exists []; rewrite app_nil_r; reflexivity]|].
  unfold a, find, count, blk. destruct (find_loop_spec 1 [] (z ++ [Some 1]) (Z.to_nat (n + 1)) []) as (i & E & H).
  - apply Forall_app. split; [|repeat constructor; discriminate]. apply Forall_forall. intros c Hc. rewrite Ez in Hc. apply repeat_spec in Hc. subst. discriminate.
  - rewrite len_app, L. change (len [Some 1]) with 1. lia.
  - rewrite app_nil_r in E. cbn [app] in E. change (len (@nil (option Z))) with 0 in *. replace (0 + len (z ++ [Some 1])) with (n + 1) in E by (rewrite len_app, L; reflexivity).
    rewrite E. f_equal. destruct H as [(p & q & Hq & N & ->)|(N & ->)].
    + assert (~ In (Some 1) z) as Nz by (intros Hc; rewrite Ez in Hc; apply repeat_spec in Hc; discriminate).
      assert (p = z) as ->; [|rewrite L; reflexivity].
      clear - Hq N Nz. revert p Hq N. induction z as [|c z IH]; intros p Hq N.
      * destruct p as [|c p]; auto. injection Hq as <- Hq. destruct p; discriminate.
      * destruct p as [|c' p]; [injection Hq as -> _; exfalso; apply Nz; left; auto|]. injection Hq as <- Hq. f_equal. apply IH; auto; cbn in *; tauto.
    + exfalso. apply N. apply in_or_app. right. left. auto.
Qed.

(* Beyond 2^31 elements the index is returned as a negative int *)
Theorem C36_find_refuted : exists a l v,
  shows a l /\ In (Some v) l /\ find (Some a) v = Ok (-2^31) /\ contains (Some a) v = Ok false.
Proof.
  assert (exists n, n = 2^31) as (n & Hn) by eauto. assert (exists z : list (option Z), z = repeat (Some 0) (Z.to_nat n)) as (z & Hz) by eauto.
  destruct (find_last n z Hz ltac:(lia)) as (Sh & F). eexists. exists (z ++ [Some 1]), 1. split; [exact Sh|].
  split; [apply in_or_app; right; left; auto|]. unfold contains. rewrite F, Hn. split; reflexivity.
Qed.
Print Assumptions C36_find_refuted.

(* Any sequence of calls has the effect of the list operations. Missing: the cases excluded by
   [admissible]; insertions behind the end do what is described by [does]. *)
Theorem C36_int_array_partial : forall d grow a l os,
  (forall k, k <= grow k) -> shows a l -> len l < 2^32 -> all_admissible l os ->
  exists a' rs l', run d grow (Some a) os = Ok (Some a', rs) /\ shows a' l' /\ runs l os rs l' /\ refs a' = refs a.
Proof. intros. apply run_spec; auto. Qed.
Print Assumptions C36_int_array_partial.

(* A call which has the effect of a list operation is not mistaken for another one *)
Theorem C36_one_call_partial : forall d grow a l o,
  (forall k, k <= grow k) -> shows a l -> len l < 2^32 -> admissible l o ->
  exists a' r l', step d grow (Some a) o = Ok (Some a', r) /\ shows a' l' /\ does l o r l' /\ crit a' = crit a + complains l o.
Proof.
  intros d grow a l o G Sh Hl Ad. destruct (step_spec d grow a l o G Sh Hl Ad) as (a' & r & l' & E & S' & D & Cr & _). exists a', r, l'. auto.
Qed.
Print Assumptions C36_one_call_partial.

Theorem C36_new : forall grow v,
  (forall k, k <= grow k) -> len v < 2^32 ->
  shows int_array_new [] /\
  (forall n, 0 <= n < 2^32 -> exists a, int_array_sized_new grow n = Ok a /\ shows a [] /\ refs a = 1) /\
  (exists a, new_from_vals grow (Some v) (len v) = Ok (Some a) /\ shows a (map Some v) /\ refs a = 1) /\
  (forall x, exists a, new_from_value grow x = Ok (Some a) /\ shows a [Some x] /\ refs a = 1).
Proof.
  intros grow v G L.
  assert (shows int_array_new []) as S0 by (split; [reflexivity|exists []; reflexivity]).
  assert (forall n, exists a, int_array_sized_new grow n = Ok a /\ shows a [] /\ refs a = 1) as SN.
  { intros n. unfold int_array_sized_new. destruct (u32 (n * 4) =? 0); [exists int_array_new; auto|].
    pose proof (u32_range (n * 4)) as R. unfold in_u32 in R. destruct (expand_spec grow int_array_new [] (u32 (n * 4)) G S0) as (sp & E & _); [lia|change (len (@nil (option Z))) with 0; lia|].
    rewrite E. eexists. split; [reflexivity|]. split; [apply (shows_bc int_array_new [] sp)|reflexivity]. }
  assert (forall w, len w < 2^32 -> exists a, new_from_vals grow (Some w) (len w) = Ok (Some a) /\ shows a (map Some w) /\ refs a = 1) as NV.
  { intros w Lw. unfold new_from_vals. destruct (SN (len w)) as (a & -> & Sa & Ra). cbn [bind].
    unfold append_vals, on. destruct (g_append_spec grow a [] w G Sa) as (a' & -> & S' & _ & R'); [change (len (@nil (option Z))) with 0; lia|].
    cbn [bind]. exists a'. split; auto. split; auto. congruence. }
  split; auto. split; [intros n _; apply SN|]. split; [auto|]. intros x. apply (NV [x]). cbn. lia.
Qed.
Print Assumptions C36_new.

(* A NULL array stays NULL and contains nothing *)
Theorem C36_null : forall d grow o, exists r, step d grow None o = Ok (None, r) /\
  match o with
  | OFind _ => r = RInt (-1)
  | OContains _ | ORemove _ | ORemoveFast _ => r = RBool false
  | ORemoveAll _ | ORemoveAllFast _ => r = RInt 0
  | _ => r = RNone
  end.
Proof. intros d grow []; eexists; split; reflexivity. Qed.
Print Assumptions C36_null.

Example C36_example :
  run Strict pow2 (Some int_array_new) [OAppend [1;2;3]; OPrepend [9]; OInsert 2 [7;7]; OFind 7; ORemoveIndex 1; ORemoveIndexFast 0; OContains 9; ORemoveIndexFast 77; OSetCount 3] =
    Ok (Some (mkArr [Some 3; Some 7; Some 7; Some 2; Some 3; Some 3; None; None] 3 1 1), [RNone; RNone; RNone; RInt 2; RNone; RNone; RBool false; RNone; RNone]) /\
  admissible [Some 9; Some 1] (OInsert 2 [7;7]) /\ admissible [Some 9; Some 1] (OFind 9).
Proof. split; [vm_compute; reflexivity|]. cbn. split; [lia|]. split; [repeat constructor; discriminate|lia]. Qed.

(* ------------------------------------------------------------------ C37 *)
(* An element at an index beyond INT_MAX is not removed *)
Theorem C37_remove_refuted : exists a l v,
  shows a l /\ In (Some v) l /\
  remove (Some a) v = Ok (Some a, false) /\ remove_fast (Some a) v = Ok (Some a, false) /\
  remove_all (Some a) v = Ok (Some a, 0) /\ remove_all_fast (Some a) v = Ok (Some a, 0).
Proof.
  destruct C36_find_refuted as (a & l & v & Sh & I & F & _). exists a, l, v. split; auto. split; auto.
  assert (remove (Some a) v = Ok (Some a, false)) as R1 by (unfold remove; rewrite F; reflexivity).
  assert (remove_fast (Some a) v = Ok (Some a, false)) as R2 by (unfold remove_fast; rewrite F; reflexivity).
  split; auto. split; auto. unfold remove_all, remove_all_fast.
  destruct (size_of (Some a)); cbn [remove_loop]; rewrite R1, R2; split; reflexivity.
Qed.
Print Assumptions C37_remove_refuted.

(* Missing: arrays with more than 2^31 elements *)
Theorem C37_remove_partial : forall a l v,
  shows a l -> known l -> len l <= 2^31 ->
  (exists a' l' b, remove (Some a) v = Ok (Some a', b) /\ shows a' l' /\
     ((b = true /\ exists x y, l = x ++ Some v :: y /\ ~ In (Some v) x /\ l' = x ++ y) \/ (b = false /\ ~ In (Some v) l /\ l' = l))) /\
  (exists a' l' b, remove_fast (Some a) v = Ok (Some a', b) /\ shows a' l' /\
     ((b = true /\ Permutation (Some v :: l') l) \/ (b = false /\ ~ In (Some v) l /\ l' = l))) /\
  (exists a' l' n, remove_all (Some a) v = Ok (Some a', n) /\ shows a' l' /\
     l' = filter (fun c => negb (is_val v c)) l /\ n = len l - len l') /\
  (exists a' l' n, remove_all_fast (Some a) v = Ok (Some a', n) /\ shows a' l' /\
     Permutation l' (filter (fun c => negb (is_val v c)) l) /\ n = len l - len l').
Proof.
  intros a l v Sh K L. pose proof Sh as (C & _). pose proof (len_nonneg l).
  assert (forall f (m : list (option Z)), len (filter f m) + len (filter (fun c => negb (f c)) m) = len m) as FL.
  { intros f m. induction m as [|c m IH]; cbn [filter]; auto. destruct (f c); cbn [negb]; rewrite !len_cons; lia. }
  specialize (FL (is_val v) l).
  split; [|split; [|split]].
  - destruct (remove_spec a l v Sh K L) as (a' & l' & b & E & S' & _ & _ & [(x & y & -> & N & -> & R)|(N & -> & R)]); injection R as ->;
    [exists a', (x ++ y), true|exists a', l, false]; repeat (split; [auto|]); [left|right]; eauto 10.
  - destruct (remove_fast_spec a l v Sh K L) as (a' & l' & b & E & S' & _ & _ & [(x & y & -> & N & R & P & _)|(N & -> & R)]); injection R as ->;
    [exists a', l', true|exists a', l, false]; repeat (split; [auto|]); [left|right]; auto. split; auto.
    rewrite P. apply Permutation_middle.
  - unfold remove_all. destruct (remove_all_spec v (size_of (Some a)) a l 0 Sh K L) as (a' & l' & E & S' & _ & _ & D); try (cbn [size_of]; lia).
    exists a', l', (len (filter (is_val v) l)). split; auto. split; auto. split; auto. subst l'. lia.
  - unfold remove_all_fast. destruct (remove_all_fast_spec v (size_of (Some a)) a l 0 Sh K L) as (a' & l' & E & S' & _ & _ & D); try (cbn [size_of]; lia).
    exists a', l', (len (filter (is_val v) l)). split; auto. split; auto. split; auto. apply perm_len in D. lia.
Qed.
Print Assumptions C37_remove_partial.

Example C37_example :
  remove_all (Some (arr [5;1;5;5;2])) 5 = Ok (Some (mkArr (map Some [1;2;2;2;2] ++ [None; None]) 2 1 0), 3) /\
  remove_all_fast (Some (arr [5;1;5;5;2])) 5 = Ok (Some (mkArr (map Some [2;1;5;5;2] ++ [None; None]) 2 1 0), 3) /\
  remove (Some (arr [5;1;5;5;2])) 5 = Ok (Some (mkArr (map Some [1;5;5;2;2] ++ [None; None]) 4 1 0), true).
Proof. vm_compute. auto. Qed.

(* ------------------------------------------------------------------ C38 *)
(* Nothing is removed (and a warning logged) if pos + count overflows *)
Theorem C38_remove_range_refuted : exists a l pos n,
  shows a l /\ 0 < pos < len l /\ 0 < n < 2^32 /\
  remove_range (Some a) pos n = Ok (Some (warn a)) /\ shows (warn a) l.
Proof.
  exists (arr [1;2;3]), (map Some [1;2;3]), 1, (2^32 - 1). split; [apply shows_arr|]. split; [cbn; lia|]. split; [lia|].
  split; [vm_compute; reflexivity|apply (shows_arr [1;2;3])].
Qed.
Print Assumptions C38_remove_range_refuted.

(* Missing: only that case. *)
Theorem C38_remove_range_partial : forall a x m y pos n,
  shows a (x ++ m ++ y) -> 0 <= pos < 2^32 -> 0 <= n < 2^32 -> len (x ++ m ++ y) < 2^32 ->
  len x = Z.min pos (len (x ++ m ++ y)) -> len m = Z.min n (len (m ++ y)) ->
  pos + n < 2^32 \/ len (x ++ m ++ y) <= pos ->
  exists a', remove_range (Some a) pos n = Ok (Some a') /\ shows a' (x ++ y) /\ crit a' = crit a.
Proof.
  intros a x m y pos n Sh Hp Hn L Lx Lm H.
  destruct (step_spec Wrap (fun k => k) a (x ++ m ++ y) (ORemoveRange pos n) (fun k => Z.le_refl k) Sh L) as (a' & r & l' & E & S' & D & Cr & _).
  { cbn. lia. }
  cbn [step] in E. destruct (remove_range (Some a) pos n) as [a1|] eqn:E1; cbn [quiet bind] in E; [|discriminate]. injection E as -> <-.
  exists a'. split; auto. cbn in Cr. split; [|lia]. destruct D as (_ & x1 & m1 & y1 & E2 & Lx1 & Lm1 & ->).
  assert (len x1 = len x) as H1 by lia. rewrite !len_app in *.
  assert (len m1 = len m) as H2 by lia.
  assert (forall (p q p' q' : list (option Z)), p ++ q = p' ++ q' -> len p = len p' -> p = p' /\ q = q') as AP.
  { intros p q p' q' Hpq Hl. assert (length p = length p') as Hl' by (unfold len in Hl; lia). revert p' Hpq Hl' Hl. clear. induction p; intros [|b p'] Hpq Hl' Hl; try discriminate; auto.
    injection Hpq as -> Hpq. destruct (IHp p' Hpq) as (-> & ->); auto. rewrite !len_cons in Hl. lia. }
  destruct (AP _ _ _ _ E2) as (-> & E3); [lia|]. destruct (AP _ _ _ _ E3) as (-> & ->); [lia|]. auto.
Qed.
Print Assumptions C38_remove_range_partial.

Example C38_example :
  remove_range (Some (arr [1;2;3;4;5])) 1 2 = Ok (Some (mkArr (map Some [1;4;5;4;5] ++ [None;None]) 3 1 0)) /\
  remove_range (Some (arr [1;2;3;4;5])) 1 (2^32 - 2) = Ok (Some (mkArr (map Some [1;2;3;4;5] ++ [None;None]) 1 1 0)).
Proof. vm_compute. auto. Qed.

(* ------------------------------------------------------------------ C39 *)
(* The comparison overflows if the values are too far apart *)
Theorem C39_sort_refuted : exists a l,
  shows a (map Some l) /\ Forall in_s32 l /\
  sort_ascending Strict (Some a) = Fail SignedOverflow /\ sort_descending Strict (Some a) = Fail SignedOverflow /\
  (exists a' l', sort_ascending Wrap (Some a) = Ok (Some a') /\ shows a' (map Some l') /\ ~ Sorted Z.le l') /\
  (exists a' l', sort_descending Wrap (Some a) = Ok (Some a') /\ shows a' (map Some l') /\ ~ Sorted Z.ge l').
Proof.
  exists (arr [2^31 - 1; -2]), [2^31 - 1; -2]. split; [apply shows_arr|].
  split; [repeat constructor; unfold in_s32; lia|]. split; [reflexivity|]. split; [reflexivity|]. split.
  - exists (arr [2^31 - 1; -2]), [2^31 - 1; -2]. split; [reflexivity|]. split; [apply shows_arr|].
    intros H. inversion H as [|? ? _ Hd]; subst. inversion Hd; subst. lia.
  - exists (arr [-2; 2^31 - 1]), [-2; 2^31 - 1]. split; [reflexivity|]. split; [apply shows_arr|].
    intros H. inversion H as [|? ? _ Hd]; subst. inversion Hd; subst. lia.
Qed.
Print Assumptions C39_sort_refuted.

(* Missing: values whose difference does not fit an int *)
Theorem C39_sort_partial : forall d a l,
  shows a (map Some l) -> (forall x y, In x l -> In y l -> in_s32 (x - y)) ->
  (exists a' l', sort_ascending d (Some a) = Ok (Some a') /\ shows a' (map Some l') /\ Permutation l l' /\ Sorted Z.le l') /\
  (exists a' l', sort_descending d (Some a) = Ok (Some a') /\ shows a' (map Some l') /\ Permutation l l' /\ Sorted Z.ge l').
Proof.
  intros d a l Sh Cl. unfold sort_ascending, sort_descending, on. split.
  - destruct (g_sort_spec (ascending_proc d) Z.le a l) as (a' & ws & -> & S' & _ & _ & P & Srt); auto; [|intros; lia|].
    { intros x y Ix Iy. apply ascending_ok. auto. }
    exists a', ws. auto.
  - destruct (g_sort_spec (descending_proc d) Z.ge a l) as (a' & ws & -> & S' & _ & _ & P & Srt); auto; [|intros; lia|].
    { intros x y Ix Iy. apply descending_ok. auto. }
    exists a', ws. auto.
Qed.
Print Assumptions C39_sort_partial.

(* With wrapping arithmetic no value gets lost in any case *)
Theorem C39_sort_permutation : forall a l,
  shows a (map Some l) ->
  (exists a' l', sort_ascending Wrap (Some a) = Ok (Some a') /\ shows a' (map Some l') /\ Permutation l l') /\
  (exists a' l', sort_descending Wrap (Some a) = Ok (Some a') /\ shows a' (map Some l') /\ Permutation l l').
Proof.
  intros a l Sh. unfold sort_ascending, sort_descending, on. split.
  - destruct (g_sort_spec (ascending_proc Wrap) (fun _ _ => True) a l) as (a' & ws & -> & S' & _ & _ & P & _); auto.
    { intros x y _ _. eexists. split; [reflexivity|auto]. }
    exists a', ws. auto.
  - destruct (g_sort_spec (descending_proc Wrap) (fun _ _ => True) a l) as (a' & ws & -> & S' & _ & _ & P & _); auto.
    { intros x y _ _. eexists. split; [reflexivity|auto]. }
    exists a', ws. auto.
Qed.
Print Assumptions C39_sort_permutation.

(* Without restriction: a sort whose behaviour is defined by ISO C does sort *)
Definition same_or_undefined {A} (x y : res A) : Prop := x = y \/ x = Fail SignedOverflow.

Lemma merge_same cmp cmp' : (forall x y, same_or_undefined (cmp x y) (cmp' x y)) ->
  forall l1 l2, same_or_undefined (merge cmp l1 l2) (merge cmp' l1 l2).
Proof.
  intros H. induction l1 as [|a t1 IH1]; intros l2; [left; destruct l2; reflexivity|].
  induction l2 as [|b t2 IH2]; [left; reflexivity|].
  cbn [merge]. destruct (H a b) as [-> | ->]; [|right; reflexivity]. destruct (cmp' a b) as [c|]; cbn [bind]; [|left; reflexivity].
  destruct (c <=? 0).
  - destruct (IH1 (b :: t2)) as [-> | ->]; [left|right]; reflexivity.
  - cbn [merge] in IH2. destruct IH2 as [-> | ->]; [left|right]; reflexivity.
Qed.

Lemma msort_same cmp cmp' : (forall x y, same_or_undefined (cmp x y) (cmp' x y)) ->
  forall fuel l, same_or_undefined (msort cmp fuel l) (msort cmp' fuel l).
Proof.
  intros H. induction fuel as [|f IH]; intros l; destruct l as [|a [|b t]]; try (left; reflexivity).
  cbn [msort]. set (n := Z.to_nat (len (a :: b :: t) / 2)). 
  destruct (IH (firstn n (a :: b :: t))) as [-> | ->]; [|right; reflexivity].
  destruct (msort cmp' f (firstn n (a :: b :: t))); cbn [bind]; [|left; reflexivity].
  destruct (IH (skipn n (a :: b :: t))) as [-> | ->]; [|right; reflexivity].
  destruct (msort cmp' f (skipn n (a :: b :: t))); cbn [bind]; [|left; reflexivity].
  apply merge_same. exact H.
Qed.

Lemma g_sort_same cmp cmp' a : (forall x y, same_or_undefined (cmp x y) (cmp' x y)) -> same_or_undefined (g_sort cmp a) (g_sort cmp' a).
Proof.
  intros H. unfold g_sort. destruct (count a >? 0); [|left; reflexivity].
  destruct (read_all (slice (blk a) 0 (count a))) as [l|]; cbn [bind]; [|left; reflexivity].
  destruct (msort_same cmp cmp' H (length l) l) as [-> | ->]; [left|right]; reflexivity.
Qed.

Lemma strict_same z : same_or_undefined (arith32 Strict z) (Ok z).
Proof. unfold same_or_undefined, arith32. destruct ((-2^31 <=? z) && (z <? 2^31)); auto. Qed.

Theorem C39_sort_defined : forall a l,
  shows a (map Some l) ->
  (sort_ascending Strict (Some a) = Fail SignedOverflow \/
   exists a' l', sort_ascending Strict (Some a) = Ok (Some a') /\ shows a' (map Some l') /\ Permutation l l' /\ Sorted Z.le l') /\
  (sort_descending Strict (Some a) = Fail SignedOverflow \/
   exists a' l', sort_descending Strict (Some a) = Ok (Some a') /\ shows a' (map Some l') /\ Permutation l l' /\ Sorted Z.ge l').
Proof.
  intros a l Sh. unfold sort_ascending, sort_descending, on. split.
  - destruct (g_sort_same (ascending_proc Strict) (fun x y => Ok (x - y)) a) as [-> | ->]; [intros x y; apply strict_same| |left; reflexivity].
    right. destruct (g_sort_spec (fun x y => Ok (x - y)) Z.le a l) as (a' & ws & -> & S' & _ & _ & P & Srt); auto; [|intros; lia|].
    { intros x y _ _. eexists. split; [reflexivity|lia]. }
    exists a', ws. auto.
  - destruct (g_sort_same (descending_proc Strict) (fun x y => Ok (y - x)) a) as [-> | ->]; [intros x y; apply strict_same| |left; reflexivity].
    right. destruct (g_sort_spec (fun x y => Ok (y - x)) Z.ge a l) as (a' & ws & -> & S' & _ & _ & P & Srt); auto; [|intros; lia|].
    { intros x y _ _. eexists. split; [reflexivity|lia]. }
    exists a', ws. auto.
Qed.
Print Assumptions C39_sort_defined.

(* both can happen to numbers too far apart: here they are not compared with each other *)
Example C39_example_defined :
  sort_ascending Strict (Some (arr [-2^31; 0; 2^31 - 1])) = Ok (Some (arr [-2^31; 0; 2^31 - 1])) /\
  sort_ascending Strict (Some (arr [2^31 - 1; 0; -2^31])) = Fail SignedOverflow.
Proof. vm_compute. auto. Qed.

Example C39_example : sort_ascending Strict (Some (arr [5; -3; 2^30; 0; -3; -2^29])) = Ok (Some (arr [-2^29; -3; -3; 0; 5; 2^30])) /\
  sort_descending Strict (Some (arr [5; -3; 2^30; 0; -3; -2^29])) = Ok (Some (arr [2^30; 5; 0; -3; -3; -2^29])).
Proof. vm_compute. auto. Qed.

(* ------------------------------------------------------------------ C79 *)
(* Freeing an array: the caller gets the values or NULL; other references see an empty array or, after
   unref, an unchanged one *)
Theorem C79_int_array_free : forall a l free_data,
  shows a l -> 1 <= refs a ->
  (match fst (free (Some a) free_data) with
   | Some b => free_data = false /\ l <> [] /\ exists spare, b = l ++ spare
   | None => free_data = true \/ l = []
   end) /\
  (match fst (free_to_ints (Some a)) with
   | Some (b, n) => l <> [] /\ n = len l /\ exists spare, b = l ++ spare
   | None => l = []
   end) /\
  snd (free_to_ints (Some a)) = snd (free (Some a) free_data) /\
  (match snd (free (Some a) free_data) with
   | Some a' => 1 < refs a /\ refs a' = refs a - 1 /\ shows a' []
   | None => refs a = 1
   end) /\
  (match unref (Some a) with
   | Some a' => 1 < refs a /\ refs a' = refs a - 1 /\ shows a' l
   | None => refs a = 1
   end) /\
  (exists a', ref (Some a) = Some a' /\ refs a' = refs a + 1 /\ shows a' l) /\
  free None free_data = (None, None) /\ free_to_ints None = (None, None) /\ ref None = None /\ unref None = None.
Proof.
  intros a l fd Sh R. pose proof Sh as (C & spare & B).
  assert (shows (mkArr [] 0 (refs a - 1) (crit a)) []) as S0 by (split; [reflexivity|exists []; reflexivity]).
  assert (forall r, shows (mkArr (blk a) (count a) r (crit a)) l) as SR by (intros r; split; cbn; eauto).
  assert (l <> [] -> 0 < len l) as NE by (destruct l; [congruence|rewrite len_cons; pose proof (len_nonneg l); lia]).
  assert (count a = 0 -> l = []) as C0 by (intros; apply len0; lia).
  unfold free_to_ints, free, g_free, unref, ref.
  assert (count a <> 0 -> l <> []) as C1 by (intros H ->; apply H; rewrite C; reflexivity).
  destruct (count a =? 0) eqn:E0; destruct (refs a - 1 =? 0) eqn:E1; destruct fd; cbn [fst snd];
    repeat split; auto; try apply S0; try apply SR; try lia; try (apply C1; lia); try (right; apply C0; lia); try (apply C0; lia); eauto;
    try (eexists; split; [reflexivity|split; [reflexivity|apply SR]]).
Qed.
Print Assumptions C79_int_array_free.

Example C79_example : free_to_ints (Some (arr [4;5])) = (Some (map Some [4;5] ++ [None; None], 2), None) /\
  free (ref (Some (arr [4;5]))) true = (None, Some (mkArr [] 0 1 0)).
Proof. vm_compute. auto. Qed.

(* The functions for one value; an array may have up to 2^32 - 1 elements *)
Theorem C36_single : forall grow a l v p, (forall k, k <= grow k) -> shows a l -> len l + 1 < 2^32 -> 0 <= p <= len l ->
  (exists a', append grow (Some a) v = Ok (Some a') /\ shows a' (l ++ [Some v]) /\ refs a' = refs a) /\
  (exists a', prepend grow (Some a) v = Ok (Some a') /\ shows a' (Some v :: l) /\ refs a' = refs a) /\
  (exists a' x y, insert grow (Some a) p v = Ok (Some a') /\ l = x ++ y /\ len x = p /\ shows a' (x ++ Some v :: y) /\ refs a' = refs a) /\
  append grow None v = Ok None /\ prepend grow None v = Ok None /\ insert grow None p v = Ok None.
Proof.
  intros grow a l v p G Sh Hl Hp. split; [|split; [|split; [|repeat split]]].
  - destruct (step_spec Strict grow a l (OAppend [v]) G Sh ltac:(lia)) as (a' & r & l' & E & S' & (_ & ->) & _ & Hr & _); [cbn [admissible]; change (len [v]) with 1; lia|]. exists a'. split; [|auto].
    cbn [step] in E. unfold quiet in E. unfold append. change (len [v]) with 1 in E. destruct (append_vals grow (Some a) (Some [v]) 1); cbn [bind] in E; [|discriminate]. injection E as -> _. reflexivity.
  - destruct (step_spec Strict grow a l (OPrepend [v]) G Sh ltac:(lia)) as (a' & r & l' & E & S' & (_ & ->) & _ & Hr & _); [cbn [admissible]; change (len [v]) with 1; lia|]. exists a'. split; [|auto].
    cbn [step] in E. unfold quiet in E. unfold prepend. change (len [v]) with 1 in E. destruct (prepend_vals grow (Some a) (Some [v]) 1); cbn [bind] in E; [|discriminate]. injection E as -> _. reflexivity.
  - destruct (step_spec Strict grow a l (OInsert p [v]) G Sh ltac:(lia)) as (a' & r & l' & E & S' & (_ & D & _) & _ & Hr & _); [cbn [admissible]; change (len [v]) with 1; lia|].
    destruct (D ltac:(lia)) as (x & y & -> & Hx & ->). exists a', x, y. split; [|auto].
    cbn [step] in E. unfold quiet in E. unfold insert. change (len [v]) with 1 in E. destruct (insert_vals grow (Some a) p (Some [v]) 1); cbn [bind] in E; [|discriminate]. injection E as -> _. reflexivity.
Qed.
Print Assumptions C36_single.

Example C36_example_single : shows (arr [1; 2]) [Some 1; Some 2] /\ exists a', insert pow2 (Some (arr [1; 2])) 1 7 = Ok (Some a') /\ shows a' [Some 1; Some 7; Some 2].
Proof. split; [apply (shows_arr [1; 2])|]. eexists. split; [vm_compute; reflexivity|]. split; [reflexivity|]. eexists. cbn. reflexivity. Qed.
